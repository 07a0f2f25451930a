(** Two facts about primes: Fermat's little theorem and the existence of primitive roots. *)
From Coq Require Import ZArith Znumtheory Zpow_facts List Lia Permutation.
Import ListNotations.
Open Scope Z_scope.
Set Implicit Arguments.

Section P.
Context (p : Z) (Hp : prime p).
Local Lemma Hp2 : 2 <= p.
Proof. apply prime_ge_2. auto. Qed.

Lemma small_unit i : 0 < i < p -> ~ (p | i).
Proof. intros H [k Hk]. assert (0 < k) by nia. nia. Qed.
Lemma prime_mul_mod a b : (a * b) mod p = 0 -> a mod p = 0 \/ b mod p = 0.
Proof.
  pose proof Hp2. intros H1. apply Z.mod_divide in H1; [|lia]. apply prime_mult in H1; auto.
  destruct H1 as [H1|H1]; [left|right]; apply Z.mod_divide; auto; lia.
Qed.

(** ** Fermat *)
Let units : list Z := map Z.of_nat (seq 1 (Z.to_nat (p - 1))).
Local Lemma in_units i : In i units <-> 0 < i < p.
Proof.
  pose proof Hp2. unfold units. rewrite in_map_iff. split.
  - intros (k & <- & Hk). apply in_seq in Hk. lia.
  - intros Hi. exists (Z.to_nat i). split; [lia|]. apply in_seq. lia.
Qed.
Local Lemma nodup_units : NoDup units.
Proof. apply FinFun.Injective_map_NoDup; [intros x y; apply Nat2Z.inj|apply seq_NoDup]. Qed.
Local Definition prod (l : list Z) : Z := fold_right Z.mul 1 l.
Local Lemma prod_perm l l' : Permutation l l' -> prod l = prod l'.
Proof. unfold prod. induction 1; cbn [fold_right]; try lia; congruence. Qed.
Local Lemma prod_scaled a l : prod (map (fun i => a * i mod p) l) mod p = (a ^ Z.of_nat (length l) * prod l) mod p.
Proof.
  pose proof Hp2. induction l as [|i l IH]; [reflexivity|]. cbn [map length]. cbn [prod fold_right]. fold (prod (map (fun i => a * i mod p) l)) (prod l).
  rewrite Z.mul_mod, IH, Z.mod_mod, <- Z.mul_mod by lia. rewrite Nat2Z.inj_succ, Z.pow_succ_r by lia. f_equal. lia.
Qed.
Local Lemma prod_unit l : (forall i, In i l -> 0 < i < p) -> ~ (p | prod l).
Proof.
  induction l as [|i l IH]; intros H.
  - cbn. intros H1. apply Z.divide_1_r in H1. pose proof Hp2. lia.
  - cbn. intros H1. apply prime_mult in H1; auto. destruct H1 as [H1|H1].
    + revert H1. apply small_unit. apply H. left. auto.
    + revert H1. apply IH. intros. apply H. right. auto.
Qed.

Lemma fermatZ a : ~ (p | a) -> a ^ (p - 1) mod p = 1.
Proof.
  pose proof Hp2. intros Ha.
  set (l := map (fun i => a * i mod p) units).
  assert (Hperm : Permutation l units).
  { apply NoDup_Permutation_bis.
    - unfold l. assert (G : forall u, (forall i, In i u -> 0 < i < p) -> NoDup u -> NoDup (map (fun i => a * i mod p) u)).
      { induction u as [|i u IH]; intros Hu Hn; [constructor|]. inversion Hn; subst. cbn. constructor; [|apply IH; auto; intros; apply Hu; right; auto].
        intros Hin. apply in_map_iff in Hin. destruct Hin as (j & E & Hj). assert (Hi := Hu i (or_introl eq_refl)). assert (Hj' := Hu j (or_intror Hj)).
        assert (D : (p | a * (j - i))) by (apply Z.mod_divide; [lia|]; rewrite Z.mul_sub_distr_l, Zminus_mod, E, Z.sub_diag; apply Z.mod_0_l; lia).
        apply prime_mult in D; auto. destruct D as [D|D]; [tauto|]. destruct D as [k Hk]. assert (k = 0) by nia. assert (i = j) by lia. congruence. }
      apply G; [intros i; apply in_units|apply nodup_units].
    - unfold l. rewrite map_length. auto.
    - intros i Hi. unfold l in Hi. apply in_map_iff in Hi. destruct Hi as (j & <- & Hj). apply in_units in Hj. apply in_units.
      pose proof (Z.mod_pos_bound (a * j) p ltac:(lia)). assert (a * j mod p <> 0); [|lia]. intros E. apply Z.mod_divide in E; [|lia].
      apply prime_mult in E; auto. destruct E as [E|E]; [auto|]. revert E. apply small_unit. auto. }
  apply prod_perm in Hperm. assert (E : prod l mod p = (a ^ (p - 1) * prod units) mod p).
  { unfold l. rewrite prod_scaled. do 3 f_equal. unfold units. rewrite map_length, seq_length. lia. }
  rewrite Hperm in E. assert (D : (p | (a ^ (p - 1) - 1) * prod units)).
  { apply Z.mod_divide; [lia|]. replace ((a ^ (p - 1) - 1) * prod units) with (a ^ (p - 1) * prod units - prod units) by lia.
    rewrite Zminus_mod, <- E, Z.sub_diag. apply Z.mod_0_l. lia. }
  apply prime_mult in D; auto. destruct D as [[k D]|D].
  - replace (a ^ (p - 1)) with (1 + k * p) by lia. rewrite Z_mod_plus_full, Z.mod_small; lia.
  - exfalso. revert D. apply prod_unit. intros i. apply in_units.
Qed.

(** ** Monic polynomials have at most as many roots as their degree *)
Fixpoint mono (l : list Z) (x : Z) : Z := match l with [] => 1 | c :: l => c + x * mono l x end.
Local Lemma mono_div l : forall c r, exists m, length m = length l /\ forall x, mono (c :: l) x - mono (c :: l) r = (x - r) * mono m x.
Proof.
  induction l as [|d l IH]; intros c r.
  - exists []. split; [auto|]. intros x. cbn. lia.
  - destruct (IH d r) as (m & Hm & E). exists (mono (d :: l) r :: m). split; [cbn; lia|]. intros x. specialize (E x).
    change (c + x * mono (d :: l) x - (c + r * mono (d :: l) r) = (x - r) * (mono (d :: l) r + x * mono m x)). nia.
Qed.
Lemma mono_roots n : forall l rs, length l = n -> NoDup rs -> (forall r, In r rs -> 0 <= r < p /\ mono l r mod p = 0) -> (length rs <= n)%nat.
Proof.
  pose proof Hp2. induction n as [|n IH]; intros l rs Hl Hn Hr.
  - destruct l; [|discriminate]. destruct rs as [|r rs]; [auto|]. destruct (Hr r (or_introl eq_refl)) as [_ E]. cbn in E. rewrite Z.mod_small in E; lia.
  - destruct l as [|c l]; [discriminate|]. destruct rs as [|r rs]; [cbn; lia|]. cbn [length]. apply le_n_S.
    destruct (mono_div l c r) as (m & Hm & E). inversion Hn; subst. apply (IH m); [cbn in Hl; lia|auto|]. intros r' Hr'.
    destruct (Hr r (or_introl eq_refl)) as [Br Er]. destruct (Hr r' (or_intror Hr')) as [Br' Er']. split; [auto|].
    specialize (E r'). assert (E0 : ((r' - r) * mono m r') mod p = 0) by (rewrite <- E, Zminus_mod, Er, Er'; apply Z.mod_0_l; lia).
    apply prime_mul_mod in E0. destruct E0 as [E0|E0]; [|auto]. exfalso. apply Z.mod_divide in E0; [|lia]. destruct E0 as [k Hk]. assert (k = 0) by nia. assert (r' = r) by lia. congruence.
Qed.
Local Lemma mono_power k x : mono (repeat 0 k) x = x ^ Z.of_nat k.
Proof. induction k as [|k IH]; [reflexivity|]. cbn [repeat mono]. rewrite IH, Nat2Z.inj_succ, Z.pow_succ_r by lia. lia. Qed.

Lemma not_all_roots k : 0 < k < p - 1 -> exists a, 0 < a < p /\ a ^ k mod p <> 1.
Proof.
  intros Hk. pose proof Hp2.
  assert (D : (forall a, In a units -> a ^ k mod p = 1) \/ exists a, In a units /\ a ^ k mod p <> 1).
  { generalize units. intros u. induction u as [|i u [IH|(a & Ha & E)]]; [left; intros a []| |right; exists a; split; [right; auto|auto]].
    destruct (Z.eq_dec (i ^ k mod p) 1) as [E|E]; [left; intros a [<-|Ha]; auto|right; exists i; split; [left; auto|auto]]. }
  destruct D as [D|(a & Ha & E)]; [exfalso|exists a; split; [apply in_units; auto|auto]].
  assert (length units <= Z.to_nat k)%nat.
  { apply (@mono_roots _ (-1 :: repeat 0 (Z.to_nat k - 1))); [cbn; rewrite repeat_length; lia|apply nodup_units|].
    intros r Hr. split; [apply in_units in Hr; lia|]. cbn [mono]. rewrite mono_power.
    replace (-1 + r * r ^ Z.of_nat (Z.to_nat k - 1)) with (r ^ k - 1).
    - rewrite Zminus_mod, D, (Z.mod_small 1) by (auto; lia). apply Z.mod_0_l. lia.
    - replace k with (Z.succ (Z.of_nat (Z.to_nat k - 1))) at 1 by lia. rewrite Z.pow_succ_r by lia. lia. }
  unfold units in H0. rewrite map_length, seq_length in H0. lia.
Qed.

(** ** Primitive roots *)
Lemma prootZ : exists g, 0 < g < p /\ forall l, prime l -> (l | p - 1) -> g ^ ((p - 1) / l) mod p <> 1.
Proof.
  pose proof Hp2.
  assert (Hpow1 : forall a n, 0 <= n -> a mod p = 1 -> a ^ n mod p = 1).
  { intros a n Hn Ha. rewrite Zpower_mod, Ha by lia. rewrite Z.pow_1_l by lia. apply Z.mod_small. lia. }
  assert (G : forall n : nat, exists g, 0 < g < p /\ forall l, l <= Z.of_nat n -> prime l -> (l | p - 1) -> g ^ ((p - 1) / l) mod p <> 1).
  { induction n as [|n (g & Hg & IH)].
    - exists 1. split; [lia|]. intros l Hl Hpl. apply prime_ge_2 in Hpl. lia.
    - set (l := Z.of_nat (S n)). destruct (prime_dec l) as [Hl|Hl].
      2: { exists g. split; [auto|]. intros l' Hl' Hpl. destruct (Z.eq_dec l' l) as [->|]; [tauto|]. apply IH; auto; lia. }
      destruct (Zdivide_dec l (p - 1)) as [Hd|Hd].
      2: { exists g. split; [auto|]. intros l' Hl' Hpl Hd'. destruct (Z.eq_dec l' l) as [->|]; [tauto|]. apply IH; auto; lia. }
      destruct (Z.eq_dec (g ^ ((p - 1) / l) mod p) 1) as [Eg|Eg].
      2: { exists g. split; [auto|]. intros l' Hl' Hpl Hd'. destruct (Z.eq_dec l' l) as [->|]; [auto|]. apply IH; auto; lia. }
      pose proof (prime_ge_2 _ Hl) as Hl2. assert (Hp1 : 0 < p - 1) by lia.
      (* p - 1 = l^e m *)
      assert (Hf : exists e m, 0 <= e /\ 0 < m /\ p - 1 = l ^ e * m /\ ~ (l | m)).
      { assert (F : forall M, 0 <= M -> 0 < M -> exists e m, 0 <= e /\ 0 < m /\ M = l ^ e * m /\ ~ (l | m)).
        { apply (Z_lt_induction (fun M => 0 < M -> exists e m, 0 <= e /\ 0 < m /\ M = l ^ e * m /\ ~ (l | m))). intros M IHM HM.
          destruct (Zdivide_dec l M) as [[q Hq]|Hn]; [|exists 0, M; rewrite Z.pow_0_r; repeat split; auto; lia].
          destruct (IHM q ltac:(nia) ltac:(nia)) as (e & m & He & Hm & Eq & Hn). exists (Z.succ e), m. rewrite Z.pow_succ_r by lia. repeat split; auto; nia. }
        apply F; lia. }
      destruct Hf as (e & m & He & Hm & Em & Hnm). assert (He1 : 1 <= e).
      { destruct (Z.eq_dec e 0) as [->|]; [|lia]. rewrite Z.pow_0_r, Z.mul_1_l in Em. rewrite <- Em in Hnm. tauto. }
      destruct Hd as [c Hc]. assert (Ec : (p - 1) / l = c) by (rewrite Hc; apply Z.div_mul; lia).
      assert (Hc0 : 0 < c < p - 1) by nia. destruct (not_all_roots Hc0) as (a & Ha & Hac).
      assert (Hua : ~ (p | a)) by (apply small_unit; auto). assert (Hug : ~ (p | g)) by (apply small_unit; auto).
      exists (g * a ^ m mod p). split.
      { pose proof (Z.mod_pos_bound (g * a ^ m) p ltac:(lia)). assert (g * a ^ m mod p <> 0); [|lia]. intros E. apply Z.mod_divide in E; [|lia].
        apply prime_mult in E; auto. destruct E as [E|E]; [auto|].
        assert (Hpw : forall k, 0 <= k -> ~ (p | a ^ k)).
        { intros k Hk. revert k Hk. apply natlike_ind; [rewrite Z.pow_0_r; intros D; apply Z.divide_1_r in D; lia|].
          intros k Hk IHk. rewrite Z.pow_succ_r by lia. intros D. apply prime_mult in D; auto. tauto. }
        revert E. apply Hpw. lia. }
      assert (Epow : forall k, 0 <= k -> (g * a ^ m mod p) ^ k mod p = (g ^ k * a ^ (m * k)) mod p).
      { intros k Hk. rewrite <- Zpower_mod by lia. rewrite Z.pow_mul_l, Z.pow_mul_r by lia. reflexivity. }
      intros r Hr Hpr Hdr. pose proof (prime_ge_2 _ Hpr) as Hr2. assert (Hkr : 0 <= (p - 1) / r) by (apply Z.div_pos; lia).
      rewrite Epow by auto. destruct (Z.eq_dec r l) as [->|Hne].
      + rewrite Ec in Eg |- *. rewrite Z.mul_mod, Eg, Z.mul_1_l, Z.mod_mod by lia. intros E. apply Hac.
        assert (El : a ^ (l * c) mod p = 1) by (replace (l * c) with (p - 1) by lia; apply fermatZ; auto).
        assert (R : rel_prime l m) by (apply prime_rel_prime; auto).
        apply rel_prime_bezout in R. destruct R as [u v R].
        (* u l + v m = 1 *)
        assert (Hcmb : forall x y i j, 0 <= x -> 0 <= y -> 0 <= i -> 0 <= j -> a ^ x mod p = 1 -> a ^ y mod p = 1 -> x * i = c + y * j -> a ^ c mod p = 1).
        { intros x y i j Hx Hy Hi Hj Ex Ey Exy. assert (E1 : a ^ (x * i) mod p = 1) by (rewrite Z.pow_mul_r by lia; apply Hpow1; auto).
          rewrite Exy, Z.pow_add_r, Z.mul_mod, (Z.pow_mul_r a y j), (Hpow1 (a ^ y) j), Z.mul_1_r, Z.mod_mod in E1 by (auto; lia). exact E1. }
        destruct (Z_le_gt_dec v 0) as [Hv|Hv].
        * apply (Hcmb (l * c) (m * c) u (- v)); auto; nia.
        * apply (Hcmb (m * c) (l * c) v (- u)); auto; nia.
      + assert (Hrm : (r | m)).
        { rewrite Em in Hdr. apply prime_mult in Hdr; auto. destruct Hdr as [Hdr|Hdr]; [|auto]. exfalso.
          assert (Hpw : forall k, 0 <= k -> (r | l ^ k) -> r = l).
          { apply (natlike_ind (fun k => (r | l ^ k) -> r = l)); [rewrite Z.pow_0_r; intros D; apply Z.divide_1_r in D; lia|].
            intros k Hk IHk D. rewrite Z.pow_succ_r in D by lia. apply prime_mult in D; auto. destruct D as [D|D]; [|auto].
            destruct (prime_divisors _ Hl _ D) as [?|[?|[?|?]]]; lia. }
          apply Hne, (Hpw e); auto. }
        destruct Hrm as [k Hk]. destruct Hdr as [d Hd]. assert (Ed : (p - 1) / r = d) by (rewrite Hd; apply Z.div_mul; lia).
        replace (m * ((p - 1) / r)) with ((p - 1) * k) by (rewrite Ed; nia).
        rewrite Z.mul_mod, (Z.pow_mul_r a (p - 1) k), (Hpow1 (a ^ (p - 1)) k), Z.mul_1_r, Z.mod_mod by (try lia; try nia; apply fermatZ; auto).
        apply IH; auto; [lia|exists d; auto]. }
  destruct (G (Z.to_nat p)) as (g & Hg & Hgl). exists g. split; [auto|]. intros l Hl Hd. apply Hgl; auto.
  apply Z.divide_pos_le in Hd; lia.
Qed.
End P.
