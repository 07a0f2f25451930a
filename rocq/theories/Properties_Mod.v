(** Properties of the word-level modular arithmetic, of the prime/generator search and of the numeric
    helpers: C03 (second half), C13-C20, C63.

    The statements use only integer arithmetic, [prime] of the standard library and the predicates
    below. *)
From Coq Require Import ZArith List Bool Lia Znumtheory.
From Verif Require Import Base BaseFacts Util UtilFacts Mod ModFacts NTT NumZ.
Import ListNotations.
Open Scope Z_scope.

(** *** C03, C13 - C16 *)

Theorem C03_mul_u128 : forall a b, is_word a -> is_word b ->
  exists lo hi, mul_ a b = (lo, hi) /\ mul_win a b = (lo, hi) /\
    0 <= lo < 2 ^ 64 /\ 0 <= hi < 2 ^ 64 /\ hi * 2 ^ 64 + lo = a * b.
Proof.
  intros a b Ha Hb. destruct (mul__ok a b Ha Hb) as (lo & hi & E & Hl & Hh & H).
  exists lo, hi. rewrite mul_win_eq by auto. repeat split; auto; try apply Hl; apply Hh.
Qed.
Example C03_u128_case : mul_ (2 ^ 64 - 1) (2 ^ 64 - 3) = (3, 2 ^ 64 - 4).
Proof. reflexivity. Qed.

Theorem C13_mod : forall al ah q, is_word al -> is_word ah -> 0 < q < 2 ^ 64 ->
  mod_ al ah q = Ok ((ah * 2 ^ 64 + al) mod q) /\ mod_asm al ah q = Ok ((ah * 2 ^ 64 + al) mod q).
Proof. intros. split; [apply mod_ok|apply mod_asm_ok]; auto. Qed.
Theorem C13_mod_zero : forall al ah, mod_ al ah 0 = Undef /\ mod_asm al ah 0 = Undef.
Proof. intros. split; reflexivity. Qed.
Example C13_case : mod_ 5 (2 ^ 64 - 1) 1000003 = Ok 652347 /\ mod_asm 5 (2 ^ 64 - 1) 1000003 = Ok 652347.
Proof. vm_compute. auto. Qed.

Theorem C14_add_sub_mul_mod : forall a b q, is_word a -> is_word b -> 0 < q < 2 ^ 64 ->
  add_mod a b q = Ok ((a + b) mod q) /\ sub_mod a b q = Ok ((a - b) mod q) /\
  mul_mod a b q = Ok ((a * b) mod q).
Proof. intros. split; [apply add_mod_ok|split; [apply sub_mod_ok|apply mul_mod_ok]]; auto. Qed.
Example C14_case : sub_mod 3 (2 ^ 64 - 1) (2 ^ 63 + 29) = Ok 62 /\ add_mod (2 ^ 64 - 1) (2 ^ 64 - 1) 7 = Ok 2.
Proof. vm_compute. auto. Qed.

Theorem C15_pow_mod : forall a n q, is_word a -> is_word n -> 2 <= q < 2 ^ 64 ->
  pow_mod a n q = Ok (a ^ n mod q).
Proof. intros. apply pow_mod_ok; auto. unfold W. lia. Qed.
(** For q = 1 the exponent 0 is treated wrongly: the result is not reduced. *)
Theorem C15_pow_mod_one : forall a, pow_mod a 0 1 = Ok 1.
Proof. reflexivity. Qed.
Example C15_case : pow_mod 3 100 1000003 = Ok (3 ^ 100 mod 1000003).
Proof. vm_compute. auto. Qed.

Theorem C16_inv_mod : forall a q, prime q -> q < 2 ^ 64 -> is_word a -> ~ (q | a) ->
  exists r, inv_mod a q = Ok r /\ 0 < r < q /\ (a * r) mod q = 1.
Proof. intros. apply inv_mod_ok; auto. Qed.
Example C16_case : inv_mod 3 1000003 = Ok 666669 /\ (3 * 666669) mod 1000003 = 1.
Proof. vm_compute. auto. Qed.

(** *** C17, C18 *)

(** Up to (2^32-1)^2 the loop counter's square cannot wrap. *)
Theorem C17_findPrimeFactors : forall n, 1 <= n < (2 ^ 32 - 1) * (2 ^ 32 - 1) ->
  exists s, findPrimeFactors n = Ok s /\ NoDup s /\ forall p, In p s <-> prime p /\ (p | n).
Proof.
  intros n Hn. destruct (findPrimeFactors_ok n Hn) as (s & E & Ha & H). exists s. split; auto. split; auto.
  clear -Ha. induction s as [|x s IH]; constructor; cbn in Ha; destruct Ha as [H1 H2]; auto.
  intros Hin. specialize (H1 x Hin). lia.
Qed.
(** For n = 0 (the case prime = 1 of findPrimitiveRoot) it does not terminate. *)
Theorem C17_findPrimeFactors_zero : findPrimeFactors 0 = Diverge.
Proof. exact findPrimeFactors_zero. Qed.
Example C17_case : findPrimeFactors 360360 = Ok [2; 3; 5; 7; 11; 13].
Proof. vm_compute. reflexivity. Qed.

Theorem C18_findPrimitiveRoot : forall q, prime q -> 2 < q <= (2 ^ 32 - 1) * (2 ^ 32 - 1) ->
  exists r, findPrimitiveRoot q = Ok r /\ 2 <= r < q /\
    (forall x, 1 <= x < q -> exists k, 0 <= k /\ r ^ k mod q = x) /\
    (forall r', 2 <= r' < r -> exists x, 1 <= x < q /\ forall k, 0 <= k -> r' ^ k mod q <> x).
Proof.
  intros q Hq Hr. destruct (findPrimitiveRoot_ok q Hq Hr) as (r & E & Hr2 & Hg & Hl).
  exists r. repeat split; auto; try lia. intros r' Hr'. specialize (Hl r' Hr').
  (* a decidable search over the finitely many residues *)
  assert (Hdec : forall x, 1 <= x < q -> {exists k, 0 <= k /\ r' ^ k mod q = x} + {forall k, 0 <= k -> r' ^ k mod q <> x}).
  { intros x Hx. assert (Hnd : ~ (q | r')) by (intros Hd; apply dvd_pos_le in Hd; lia).
    destruct (in_dec Z.eq_dec x (map (fun i => r' ^ i mod q) (zrange 0 (q - 1)))) as [Hin|Hin].
    - left. apply in_map_iff in Hin as (k & <- & Hk). apply zrange_in in Hk. exists k. split; auto. lia.
    - right. intros k Hk E1. apply Hin. apply in_map_iff. exists (k mod (q - 1)).
      pose proof (Z.mod_pos_bound k (q - 1) ltac:(lia)). split; [|apply zrange_in; lia].
      rewrite <- E1. rewrite (Z.div_mod k (q - 1)) at 2 by lia.
      assert (0 <= k / (q - 1)) by (apply Z.div_pos; lia).
      rewrite pow_mod_cancel; auto; try lia; try nia.
      apply pow_mod_mul; try lia. rewrite (Z.mod_small 1) by lia.
      apply NumFermat.fermatZ; auto. }
  assert (G : forall n, (forall x, 1 <= x < 1 + Z.of_nat n -> x < q -> exists k, 0 <= k /\ r' ^ k mod q = x) \/
                        (exists x, 1 <= x < q /\ forall k, 0 <= k -> r' ^ k mod q <> x)).
  { induction n as [|n [IH|IH]]; [left; intros; lia| |right; auto].
    destruct (Z_lt_le_dec (1 + Z.of_nat n) q).
    - destruct (Hdec (1 + Z.of_nat n) ltac:(lia)) as [Hy|Hn].
      + left. intros x Hx Hxq. destruct (Z.eq_dec x (1 + Z.of_nat n)) as [->|]; auto. apply IH; lia.
      + right. exists (1 + Z.of_nat n). split; auto. lia.
    - left. intros x Hx Hxq. apply IH; lia. }
  destruct (G (Z.to_nat q)) as [H|]; auto. exfalso. apply Hl. intros x Hx. apply H; lia.
Qed.
Example C18_case : findPrimitiveRoot 191 = Ok 19 /\ findPrimitiveRoot 786433 = Ok 10.
Proof. vm_compute. auto. Qed.
(** The prime 2 is outside the domain: the failure value 0 comes back. *)
Example C18_two : findPrimitiveRoot 2 = Ok 0.
Proof. vm_compute. auto. Qed.

(** *** C19, C20 *)

Theorem C19_bitReverse : forall d x, 1 <= d <= 32 -> 0 <= x < 2 ^ d ->
  exists y, bitReverse x d = Ok y /\ 0 <= y < 2 ^ d /\
    (forall i, 0 <= i < d -> Z.testbit y i = Z.testbit x (d - 1 - i)) /\
    bitReverse y d = Ok x.
Proof.
  intros d x Hd Hx. assert (2 ^ d <= 2 ^ 32) by (apply Z.pow_le_mono_r; lia).
  rewrite bitReverse_brv by lia. eexists. split; [reflexivity|].
  pose proof (brv_range (Z.to_nat d) x) as Hr. rewrite Z2Nat.id in Hr by lia. split; [lia|]. split.
  - intros i Hi. rewrite brv_bit by lia. f_equal. lia.
  - rewrite bitReverse_brv by lia. f_equal. apply brv_involutive. rewrite Z2Nat.id by lia. lia.
Qed.
Theorem C19_bitReverse_undef : forall d x, d <= 0 \/ 32 < d -> bitReverse x d = Undef.
Proof. intros. apply bitReverse_undef. auto. Qed.
Example C19_case : bitReverse 11 16 = Ok 53248 /\ bitReverse 53248 16 = Ok 11.
Proof. vm_compute. auto. Qed.

Theorem C20_log : forall N, N <= 2 ^ 30 ->
  exists i, log_ N = Ok i /\ 0 <= i /\ N <= 2 ^ i /\ forall j, 0 <= j -> N <= 2 ^ j -> i <= j.
Proof.
  intros N HN. destruct (Z_le_gt_dec N 1).
  - exists 0. rewrite log_small by auto. repeat split; auto; try lia.
  - assert (Hk : 1 <= Z.log2_up N <= 30).
    { split.
      - change 1 with (Z.log2_up 2). apply Z.log2_up_le_mono. lia.
      - change 30 with (Z.log2_up (2 ^ 30)). apply Z.log2_up_le_mono. lia. }
    pose proof (Z.log2_up_spec N ltac:(lia)) as Hs.
    exists (Z.log2_up N). rewrite (log_pow (Z.log2_up N)); [|lia|rewrite <- Z.sub_1_r in Hs; lia].
    repeat split; auto; try lia. intros j Hj Hle. apply Z.log2_up_le_pow2; lia.
Qed.
Theorem C20_log_undef : forall N, 2 ^ 30 < N -> log_ N = Undef.
Proof. exact log_undef. Qed.
Example C20_case : log_ 65536 = Ok 16 /\ log_ 65537 = Ok 17 /\ log_ (-3) = Ok 0.
Proof. vm_compute. auto. Qed.

(** *** C63 *)

(** The result of rand_uint64 as a function of five successive outputs of rand(). *)
Definition rand5 (RAND_MAX : Z) (t : Z * Z * Z * Z * Z) : Z :=
  let '(r0, r1, r2, r3, r4) := t in
  fst (rand_uint64 RAND_MAX (fun k => nth k [r0; r1; r2; r3; r4] 0) 0).

Definition rand_outs (RAND_MAX : Z) (t : Z * Z * Z * Z * Z) : Prop :=
  let '(r0, r1, r2, r3, r4) := t in
  Forall (fun r => 0 <= r <= RAND_MAX) [r0; r1; r2; r3; r4].

(** Every word is produced by equally many (2^(5k-64)) outcomes: the outcomes are in bijection with
    the pairs (word, number below 2^(5k-64)). *)
Theorem C63_rand_uint64_uniform : forall k RAND_MAX, 15 <= k <= 31 -> RAND_MAX + 1 = 2 ^ k ->
  exists idx : Z * Z * Z * Z * Z -> Z,
    (forall t, rand_outs RAND_MAX t -> 0 <= idx t < 2 ^ (5 * k - 64) /\ 0 <= rand5 RAND_MAX t < 2 ^ 64) /\
    (forall v j, 0 <= v < 2 ^ 64 -> 0 <= j < 2 ^ (5 * k - 64) ->
       exists t, (rand_outs RAND_MAX t /\ rand5 RAND_MAX t = v /\ idx t = j) /\
         forall t', rand_outs RAND_MAX t' -> rand5 RAND_MAX t' = v -> idx t' = j -> t' = t).
Proof.
  intros k RM Hk HR. set (B := 2 ^ k) in *.
  assert (HB : 2 ^ 15 <= B <= 2 ^ 31) by (unfold B; split; apply Z.pow_le_mono_r; lia).
  pose (num := fun t : Z * Z * Z * Z * Z => let '(r0, r1, r2, r3, r4) := t in
     (((r0 * B + r1) * B + r2) * B + r3) * B + r4).
  assert (E5 : 2 ^ (5 * k) = B * B * B * B * B).
  { unfold B. rewrite <- !Z.pow_add_r by lia. f_equal. lia. }
  assert (Ew : 2 ^ (5 * k) = 2 ^ (5 * k - 64) * 2 ^ 64) by (rewrite <- Z.pow_add_r by lia; f_equal; lia).
  assert (Hv : forall t, rand5 RM t = num t mod 2 ^ 64).
  { intros [[[[r0 r1] r2] r3] r4]. unfold rand5. rewrite rand_uint64_ok by lia. cbn [fst nth Nat.add].
    rewrite HR. reflexivity. }
  assert (Hrange : forall t, rand_outs RM t -> 0 <= num t < 2 ^ (5 * k)).
  { intros [[[[r0 r1] r2] r3] r4] H. unfold rand_outs in H.
    repeat match goal with H : Forall _ (_ :: _) |- _ => inversion H; subst; clear H end. unfold num. rewrite E5.
    assert (G : forall a b, 0 <= a -> 0 <= b <= RM -> forall M, a < M -> 0 <= a * B + b < M * B) by (intros; nia).
    assert (H0 : 0 <= r0 < B) by lia.
    pose proof (G r0 r1 ltac:(lia) ltac:(lia) B ltac:(lia)) as H1'.
    pose proof (G _ r2 (proj1 H1') ltac:(lia) _ (proj2 H1')) as H2'.
    pose proof (G _ r3 (proj1 H2') ltac:(lia) _ (proj2 H2')) as H3'.
    apply (G _ r4 (proj1 H3') ltac:(lia) _ (proj2 H3')). }
  assert (Hinj : forall t t', rand_outs RM t -> rand_outs RM t' -> num t = num t' -> t = t').
  { intros [[[[r0 r1] r2] r3] r4] [[[[s0 s1] s2] s3] s4] H H' E. unfold rand_outs in H, H'.
    repeat match goal with H : Forall _ (_ :: _) |- _ => inversion H; subst; clear H end. unfold num in E.
    assert (G : forall a b c d, 0 <= b <= RM -> 0 <= d <= RM -> a * B + b = c * B + d -> a = c /\ b = d).
    { intros a b c d Hb Hd Eq. assert (a = c); [|subst; lia].
      rewrite (Z.div_unique (a * B + b) B a b), (Z.div_unique (c * B + d) B c d) by lia. congruence. }
    apply G in E as [E ->]; auto. apply G in E as [E ->]; auto. apply G in E as [E ->]; auto.
    apply G in E as [E ->]; auto. subst. reflexivity. }
  assert (Hsurj : forall n, 0 <= n < 2 ^ (5 * k) -> exists t, rand_outs RM t /\ num t = n).
  { intros n Hn. rewrite E5 in Hn.
    exists (n / B / B / B / B, n / B / B / B mod B, n / B / B mod B, n / B mod B, n mod B).
    assert (Hm : forall x, 0 <= x mod B <= RM) by (intros x; pose proof (Z.mod_pos_bound x B ltac:(lia)); lia).
    split.
    - unfold rand_outs. repeat constructor; try apply Hm.
      + repeat (apply Z.div_pos; [|lia]). lia.
      + assert (Hd : forall x M, x < M * B -> x / B < M) by (intros; apply Z.div_lt_upper_bound; lia).
        assert (n / B / B / B / B < B) by (repeat apply Hd; lia). lia.
    - unfold num. pose proof (Z.div_mod n B ltac:(lia)). pose proof (Z.div_mod (n / B) B ltac:(lia)).
      pose proof (Z.div_mod (n / B / B) B ltac:(lia)). pose proof (Z.div_mod (n / B / B / B) B ltac:(lia)).
      replace (n / B / B / B / B * B + (n / B / B / B) mod B) with (n / B / B / B) by lia.
      replace (n / B / B / B * B + (n / B / B) mod B) with (n / B / B) by lia.
      replace (n / B / B * B + (n / B) mod B) with (n / B) by lia. lia. }
  exists (fun t => num t / 2 ^ 64). split.
  - intros t Ht. specialize (Hrange t Ht). rewrite Hv. split; [|apply Z.mod_pos_bound; lia].
    split; [apply Z.div_pos; lia|apply Z.div_lt_upper_bound; lia].
  - intros v j Hvr Hj. destruct (Hsurj (j * 2 ^ 64 + v)) as (t & Ht & En); [rewrite Ew; nia|].
    exists t. rewrite Hv. split.
    + split; auto. rewrite En. rewrite Z.add_comm, Z.mod_add, Z.div_add by lia.
      rewrite Z.mod_small, Z.div_small by lia. lia.
    + intros t' Ht' E1 E2. apply Hinj; auto. rewrite Hv in E1. rewrite En.
      pose proof (Z.div_mod (num t') (2 ^ 64) ltac:(lia)). lia.
Qed.
Example C63_case : rand5 (2 ^ 31 - 1) (1, 2, 3, 4, 5) = (1 * 2 ^ 124 + 2 * 2 ^ 93 + 3 * 2 ^ 62 + 4 * 2 ^ 31 + 5) mod 2 ^ 64
  /\ rand_outs (2 ^ 31 - 1) (1, 2, 3, 4, 5).
Proof. split; [vm_compute; reflexivity|]. repeat constructor; discriminate. Qed.

Print Assumptions C03_mul_u128.
Print Assumptions C13_mod.
Print Assumptions C14_add_sub_mul_mod.
Print Assumptions C15_pow_mod.
Print Assumptions C16_inv_mod.
Print Assumptions C17_findPrimeFactors.
Print Assumptions C18_findPrimitiveRoot.
Print Assumptions C19_bitReverse.
Print Assumptions C20_log.
Print Assumptions C63_rand_uint64_uniform.
