(** C47-C50, C59, C65-C68: matrices and messages. *)
From Coq Require Import ZArith List Bool Lia Ring.
From Verif Require Import Base BaseFacts GSum Matrix MatrixFacts MatMulFacts SpecMat.
Import ListNotations.
Open Scope Z_scope.

(** ** the specification in terms of the closed forms *)
Lemma map_range {A} n (f : Z -> A) : map f (range n) = tab n f.
Proof. unfold range, tab. apply map_map. Qed.
Lemma array_gtab {A} n (f : Z -> A) : array n f = gtab n f.
Proof. unfold array. rewrite map_range. reflexivity. Qed.
Lemma diagonals_sdi {F} N S v o z : @diagonals F N S v o z = sdi N S v o z.
Proof.
  unfold diagonals, sdi. rewrite !array_gtab, map_range. f_equal. apply tab_ext. intros s Hs. apply array_gtab.
Qed.
Lemma cells_tab {A} n (l : list (option A)) : cells n l -> exists g, l = tab n g.
Proof. intros H. exact (arr_tab None l n H). Qed.
Lemma shape_sdt {F} N S (A : sd F) : shape N S A -> exists a b c, A = sdt N S a b c.
Proof.
  intros (H1 & H2 & H3 & H4). destruct A as [v o z]; cbn [vec off zro] in *.
  destruct (cells_tab S o H3) as [b ->]. destruct (cells_tab S z H4) as [c ->].
  destruct (arr_tab [] v S H1) as [g ->].
  exists (fun s i => nth (Z.to_nat i) (g s) None), b, c. unfold sdt. f_equal. apply tab_ext. intros s Hs.
  assert (Hl : cells N (g s)).
  { rewrite Forall_forall in H2. apply H2. apply nth_error_In with (n := Z.to_nat s). apply nth_error_tab. auto. }
  rewrite (list_tab None (g s)) at 1. unfold cells in Hl. rewrite Hl. unfold tab. rewrite Nat2Z.id. reflexivity.
Qed.
Lemma diagonals_shape {F} N S v o z : shape N S (@diagonals F N S v o z).
Proof.
  unfold shape, diagonals, cells, array, range; cbn [vec off zro]. rewrite !map_length, seq_length.
  repeat split; auto. apply Forall_forall. intros l Hl. apply in_map_iff in Hl. destruct Hl as (x & <- & _).
  unfold cells. rewrite !map_length, seq_length. reflexivity.
Qed.
Lemma matrix_dense {K : ops} N S (v : Z -> Z -> K) o i j : matrix_of N S v o i j = dense N S v o i j.
Proof. reflexivity. Qed.
Lemma new_shape F N S : shape N S (sd_new F N S).
Proof.
  unfold shape, sd_new, cells, gfresh; cbn [vec off zro]. rewrite !repeat_length.
  repeat split; auto. apply Forall_forall. intros l Hl. apply repeat_spec in Hl. subst. unfold cells. apply repeat_length.
Qed.
Lemma carray_cvtab {K : ops} n (z : Z -> Cops K) : carray n z = cvtab n z.
Proof. unfold carray, cvtab. rewrite !array_gtab. reflexivity. Qed.
Lemma flags_fits {K : ops} N S (vr vi : Z -> Z -> K) o oi zr zi : flags_right N S vr vi o oi zr zi -> fits N S vr vi o oi zr zi.
Proof.
  intros H. constructor; intros s.
  - intros Hs E. specialize (H s Hs). rewrite E in H. exact H.
  - intros i Hs Hi E. specialize (H s Hs). rewrite E in H. auto.
Qed.

Section Props.
Context {K : ops} (HK : lawful K).
Let HR : ring_theory (@o0 K) o1 oadd omul osub oopp eq := HK.
Add Ring Kpm : HR.
Implicit Types (v : Z -> Z -> K) (o : Z -> Z) (z : Z -> bool).

Definition offsets_int (S : Z) o := forall s, 0 <= s < S -> - 2 ^ 30 <= o s <= 2 ^ 30.

(** ** C47 *)

(** get_element returns the entry of the matrix. *)
Theorem C47_get_element N S v o z i j :
  0 < N <= 2 ^ 30 -> 0 <= S -> offsets_int S o -> distinct_offsets N S o -> 0 <= i < N -> 0 <= j < N ->
  get_element N S (diagonals N S v o z) i j = Ok (matrix_of N S v o i j).
Proof.
  intros HN HS Ho Hd Hi Hj. rewrite diagonals_sdi, get_element_ok by auto. f_equal. cbv zeta.
  pose proof (first_diag_spec N S i j o HS) as H. cbv zeta in H. destruct H as (Hr & H1 & H2).
  set (r := first_diag N S i j o) in *. destruct (Z.ltb_spec r S) as [Hlt|Hge].
  - unfold matrix_of. rewrite (gsum_single HK S r).
    + specialize (H2 Hlt). unfold ondiag in H2. rewrite H2. reflexivity.
    + lia.
    + intros s Hs Hne. destruct (Z.eqb_spec ((j - i - o s) mod N) 0) as [E|]; auto. exfalso. apply Hne. apply Hd; auto; [lia|].
      specialize (H2 Hlt). unfold ondiag in H2. apply Z.eqb_eq in H2.
      replace (o s - o r) with ((j - i - o r) - (j - i - o s)) by lia. rewrite Zminus_mod, H2, E. reflexivity.
  - unfold matrix_of. symmetry. apply gsum_zero; auto. intros s Hs. specialize (H1 s ltac:(lia)). unfold ondiag in H1. rewrite H1. reflexivity.
Qed.

(** set_element changes one entry. *)
Theorem C47_set_element N S v o z i j x :
  0 < N <= 2 ^ 30 -> 0 <= S -> offsets_int S o -> 0 <= i < N -> 0 <= j < N ->
  (exists s, 0 <= s < S /\ (j - i - o s) mod N = 0) ->
  exists A, set_element N S (diagonals N S v o z) i j x = Ok A /\
    get_element N S A i j = Ok x /\
    (forall i' j', 0 <= i' < N -> 0 <= j' < N -> (i', j') <> (i, j) ->
       get_element N S A i' j' = get_element N S (diagonals N S v o z) i' j') /\
    (forall s, 0 <= s < S -> get_off A s = Ok (o s)) /\
    exists s, 0 <= s < S /\ (j - i - o s) mod N = 0 /\ get_vec A s i = Ok x /\ get_zero A s = Ok false.
Proof.
  intros HN HS Ho Hi Hj (s & Hs & E). rewrite diagonals_sdi.
  pose proof (first_diag_spec N S i j o HS) as H. cbv zeta in H. destruct H as (Hr & H1 & H2).
  assert (Hlt : first_diag N S i j o < S).
  { destruct (Z.lt_ge_cases (first_diag N S i j o) S); auto. exfalso. specialize (H1 s ltac:(lia)). unfold ondiag in H1. rewrite E in H1. discriminate. }
  eexists. split.
  { rewrite set_element_ok by auto. cbv zeta. destruct (Z.ltb_spec (first_diag N S i j o) S); [reflexivity|lia]. }
  specialize (H2 Hlt). unfold ondiag in H2. apply Z.eqb_eq in H2.
  split; [|split; [|split]].
  - rewrite get_element_ok by auto. cbv zeta. destruct (Z.ltb_spec (first_diag N S i j o) S); [|lia].
    unfold up2. rewrite !Z.eqb_refl. reflexivity.
  - intros i' j' Hi' Hj' Hne. rewrite !get_element_ok by auto. cbv zeta. f_equal.
    pose proof (first_diag_spec N S i' j' o HS) as H'. cbv zeta in H'. destruct H' as (Hr' & H1' & H2').
    destruct (Z.ltb_spec (first_diag N S i' j' o) S) as [Hl|]; auto. specialize (H2' Hl). unfold ondiag in H2'. apply Z.eqb_eq in H2'.
    unfold up2. destruct (Z.eqb_spec (first_diag N S i' j' o) (first_diag N S i j o)) as [Ed|]; cbn [andb]; auto.
    destruct (Z.eqb_spec i' i) as [->|]; auto. exfalso. apply Hne. f_equal.
    rewrite Ed in H2'. apply Z.mod_divide in H2; [|lia]. apply Z.mod_divide in H2'; [|lia]. destruct H2 as [a Ha], H2' as [b Hb].
    assert (j' - j = (b - a) * N) by lia. assert (b - a = 0) by (destruct (Z.lt_trichotomy (b - a) 0) as [?|[?|?]]; nia). nia.
  - intros t Ht. apply get_off_sdi. auto.
  - exists (first_diag N S i j o). split; [lia|]. split; [exact H2|]. split.
    + rewrite get_vec_sdi by (auto; lia). unfold up2. rewrite !Z.eqb_refl. reflexivity.
    + rewrite get_zero_sdi by lia. unfold up1. rewrite Z.eqb_refl. reflexivity.
Qed.

(** Writing outside the stored diagonals fails the assertion. *)
Theorem C47_set_element_outside N S v o z i j x :
  0 < N <= 2 ^ 30 -> 0 <= S -> offsets_int S o -> 0 <= i < N -> 0 <= j < N ->
  (forall s, 0 <= s < S -> (j - i - o s) mod N <> 0) ->
  set_element N S (diagonals N S v o z) i j x = Abort.
Proof.
  intros HN HS Ho Hi Hj Hn. rewrite diagonals_sdi, set_element_ok by auto. cbv zeta.
  pose proof (first_diag_spec N S i j o HS) as H. cbv zeta in H. destruct H as (Hr & H1 & H2).
  destruct (Z.ltb_spec (first_diag N S i j o) S) as [Hl|]; auto. exfalso. specialize (H2 Hl). unfold ondiag in H2.
  apply Z.eqb_eq in H2. apply (Hn (first_diag N S i j o)); auto. lia.
Qed.

Theorem C47_setzero N S (A : sd K) : 0 < N -> 0 <= S -> shape N S A ->
  exists o, sd_setzero N S A = Ok (diagonals N S (fun _ _ => 0%num) o (fun _ => true)) /\
  forall i j, matrix_of N S (fun _ _ => (0%num : K)) o i j = 0%num.
Proof.
  intros HN HS HA. destruct (shape_sdt N S A HA) as (a & b & c & E). exists (fun _ => 0). split.
  - rewrite diagonals_sdi. apply (sd_setzero_ok N S A a b c); auto. lia.
  - intros i j. apply gsum_zero; auto. intros s Hs. destruct (_ =? 0); auto.
Qed.

Theorem C47_copy N S (A : sd K) v o z : 0 < N -> 0 <= S -> shape N S A ->
  sd_copy N S A (diagonals N S v o z) = Ok (diagonals N S v o z).
Proof.
  intros HN HS HA. destruct (shape_sdt N S A HA) as (a & b & c & E). rewrite diagonals_sdi.
  apply (sd_copy_ok N S A v o z a b c); auto. lia.
Qed.

Theorem C47_negate N S v o z : 0 < N -> 0 <= S ->
  exists w, sd_negate N S (diagonals N S v o z) = Ok (diagonals N S w o z) /\
    forall i j, matrix_of N S w o i j = (- matrix_of N S v o i j)%num.
Proof.
  intros HN HS. exists (fun s i => (- v s i)%num). split.
  - rewrite !diagonals_sdi. apply sd_negate_ok; lia.
  - intros i j. unfold matrix_of. rewrite <- gsum_opp by auto. apply gsum_ext. intros s Hs. destruct (_ =? 0); ring.
Qed.

Theorem C47_scale N S v o z a : 0 < N -> 0 <= S ->
  exists w, sd_scale N S (diagonals N S v o z) a = Ok (diagonals N S w o z) /\
    forall i j, matrix_of N S w o i j = (matrix_of N S v o i j * a)%num.
Proof.
  intros HN HS. exists (fun s i => (v s i * a)%num). split.
  - rewrite !diagonals_sdi. apply sd_scale_ok; lia.
  - intros i j. unfold matrix_of. rewrite <- gsum_scale_r by auto. apply gsum_ext. intros s Hs. destruct (_ =? 0); ring.
Qed.

(** += and -= with the matrix-level meaning; the flags of the left operand stay. *)
Theorem C47_add N S v o z v2 z2 : 0 < N -> 0 <= S ->
  exists w, sd_add N S (diagonals N S v o z) (diagonals N S v2 o z2) = Ok (diagonals N S w o z) /\
    forall i j, matrix_of N S w o i j = (matrix_of N S v o i j + matrix_of N S v2 o i j)%num.
Proof.
  intros HN HS. exists (fun s i => (v s i + v2 s i)%num). split.
  - rewrite !diagonals_sdi. apply sd_add_ok; auto; lia.
  - intros i j. unfold matrix_of. rewrite <- gsum_add by auto. apply gsum_ext. intros s Hs. destruct (_ =? 0); ring.
Qed.
Theorem C47_sub N S v o z v2 z2 : 0 < N -> 0 <= S ->
  exists w, sd_sub N S (diagonals N S v o z) (diagonals N S v2 o z2) = Ok (diagonals N S w o z) /\
    forall i j, matrix_of N S w o i j = (matrix_of N S v o i j - matrix_of N S v2 o i j)%num.
Proof.
  intros HN HS. exists (fun s i => (v s i - v2 s i)%num). split.
  - rewrite !diagonals_sdi. apply sd_sub_ok; auto; lia.
  - intros i j. unfold matrix_of. rewrite <- gsum_sub by auto. apply gsum_ext. intros s Hs. destruct (_ =? 0); ring.
Qed.

(** transpose swaps the indices (offsets in [0,N)). *)
Theorem C47_transpose N S v o z : 0 < N < 2 ^ 30 -> 0 <= S -> offsets_in N S o ->
  exists w p, sd_transpose N S (diagonals N S v o z) = Ok (diagonals N S w p z) /\ offsets_in N S p /\
    (distinct_offsets N S o -> distinct_offsets N S p) /\
    forall i j, 0 <= i < N -> 0 <= j < N -> matrix_of N S w p i j = matrix_of N S v o j i.
Proof.
  intros HN HS Ho. exists (tr_vec N v o), (tr_off N o). split; [|split; [|split]].
  - rewrite !diagonals_sdi. apply sd_transpose_ok; auto. intros s Hs. apply Ho. auto.
  - intros s Hs. specialize (Ho s Hs). unfold tr_off. destruct (Z.gtb_spec (o s) 0); lia.
  - intros Hd s t Hs Ht E. apply Hd; auto. pose proof (Ho s Hs). pose proof (Ho t Ht). unfold tr_off in E.
    assert (forall x, x mod N = 0 -> (- x) mod N = 0) as Hopp
      by (intros x Hx; apply Z.mod_divide in Hx; [|lia]; apply Z.mod_divide; [lia|]; apply Z.divide_opp_r; auto).
    destruct (Z.gtb_spec (o s) 0), (Z.gtb_spec (o t) 0).
    + replace (o s - o t) with (- (N - o s - (N - o t))) by lia. auto.
    + assert (o t = 0) by lia. replace (o s - o t) with (- (N - o s - o t) + 1 * N) by lia. rewrite Z.mod_add by lia. auto.
    + assert (o s = 0) by lia. replace (o s - o t) with (- (o s - (N - o t)) + (-1) * N) by lia. rewrite Z.mod_add by lia. auto.
    + replace (o s) with 0 by lia. replace (o t) with 0 by lia. apply Z.mod_0_l. lia.
  - intros i j Hi Hj. unfold matrix_of. apply gsum_ext. intros s Hs. pose proof (Ho s Hs) as Hos. unfold tr_off, tr_vec.
    destruct (Z.gtb_spec (o s) 0).
    + assert (Eq : ((j - i - (N - o s)) mod N =? 0) = ((i - j - o s) mod N =? 0)).
      { destruct (Z.eqb_spec ((j - i - (N - o s)) mod N) 0) as [E|E], (Z.eqb_spec ((i - j - o s) mod N) 0) as [E'|E']; auto; exfalso.
        - apply E'. apply Z.mod_divide in E; [|lia]. apply Z.mod_divide; [lia|]. destruct E as [c Hc]. exists (- c - 1). lia.
        - apply E. apply Z.mod_divide in E'; [|lia]. apply Z.mod_divide; [lia|]. destruct E' as [c Hc]. exists (- c - 1). lia. }
      rewrite Eq. destruct (Z.eqb_spec ((i - j - o s) mod N) 0) as [E|]; auto. f_equal.
      apply Z.mod_divide in E; [|lia]. destruct E as [c Hc]. replace (i - o s) with (j + c * N) by lia.
      rewrite Z.mod_add by lia. apply Z.mod_small. auto.
    + assert (o s = 0) as -> by lia. rewrite !Z.sub_0_r.
      destruct (Z.eqb_spec ((j - i) mod N) 0) as [E|E], (Z.eqb_spec ((i - j) mod N) 0) as [E'|E']; auto.
      * apply Z.mod_divide in E; [|lia]. destruct E as [c Hc]. f_equal. destruct (Z.lt_trichotomy c 0) as [?|[?|?]]; nia.
      * exfalso. apply E'. apply Z.mod_divide in E; [|lia]. apply Z.mod_divide; [lia|]. destruct E as [c Hc]. exists (- c). lia.
      * exfalso. apply E. apply Z.mod_divide in E'; [|lia]. apply Z.mod_divide; [lia|]. destruct E' as [c Hc]. exists (- c). lia.
Qed.

(** ** C48 *)

(** the entries of a result of MatMul can be read back with get_element *)
Lemma Inv_get N S f v o z c i j : 0 < N <= 2 ^ 30 -> 0 <= S -> Inv N S S f v o z c -> 0 <= i < N -> 0 <= j < N ->
  get_element N S (sdi N S v o z) i j = Ok (f i j).
Proof.
  intros HN HS HI Hi Hj.
  assert (Ho : off_ok S o).
  { intros s Hs. destruct (Z.lt_ge_cases s c).
    - pose proof (inv_used _ _ _ _ _ _ _ _ HI s ltac:(lia)). lia.
    - pose proof (inv_free _ _ _ _ _ _ _ _ HI s ltac:(lia)). lia. }
  rewrite get_element_ok by auto. cbv zeta. f_equal. rewrite <- (inv_sum _ _ _ _ _ _ _ _ HI i j) by auto.
  pose proof (first_diag_spec N S i j o HS) as H. cbv zeta in H. destruct H as (Hr & H1 & H2).
  set (r := first_diag N S i j o) in *. unfold dense. destruct (Z.ltb_spec r S) as [Hlt|Hge].
  - rewrite (gsum_single HK S r).
    + rewrite (H2 Hlt). reflexivity.
    + lia.
    + intros s Hs Hne. destruct (ondiag N i j (o s)) eqn:E; auto. specialize (H2 Hlt).
      destruct (Z.lt_ge_cases s c) as [Hsc|Hsc].
      2:{ apply (inv_free _ _ _ _ _ _ _ _ HI s); lia. }
      exfalso. destruct (Z.lt_ge_cases s r); [rewrite H1 in E by lia; discriminate|].
      apply Hne. apply (inv_dist _ _ _ _ _ _ _ _ HI); try lia.
      pose proof (inv_used _ _ _ _ _ _ _ _ HI s ltac:(lia)) as [? _].
      pose proof (inv_used _ _ _ _ _ _ _ _ HI r ltac:(lia)) as [? _].
      unfold ondiag in E, H2. apply Z.eqb_eq in E. apply Z.eqb_eq in H2.
      apply Z.mod_divide in E; [|lia]. apply Z.mod_divide in H2; [|lia]. destruct E as [a Ha], H2 as [b Hb].
      assert (o s - o r = (b - a) * N) by lia. assert (b - a = 0) by (destruct (Z.lt_trichotomy (b - a) 0) as [?|[?|?]]; nia). nia.
  - symmetry. apply gsum_zero; auto. intros s Hs. rewrite H1 by lia. reflexivity.
Qed.

Theorem C48_matmul N S1 S2 v1 o1 z1 v2 o2 z2 (C : sd K) :
  0 < N <= 2 ^ 30 -> 0 <= S1 -> 0 <= S2 -> offsets_in N S1 o1 -> offsets_in N S2 o2 -> shape N (S1 * S2) C ->
  exists v o z, matmul N S1 S2 (diagonals N S1 v1 o1 z1) (diagonals N S2 v2 o2 z2) C = Ok (diagonals N (S1 * S2) v o z) /\
    offsets_in N (S1 * S2) o /\
    (forall s i, 0 <= s < S1 * S2 -> 0 <= i < N -> z s = true -> v s i = 0%num) /\
    forall i j, 0 <= i < N -> 0 <= j < N ->
      matrix_of N (S1 * S2) v o i j = product N (matrix_of N S1 v1 o1) (matrix_of N S2 v2 o2) i j /\
      get_element N (S1 * S2) (diagonals N (S1 * S2) v o z) i j
        = Ok (product N (matrix_of N S1 v1 o1) (matrix_of N S2 v2 o2) i j).
Proof.
  intros HN HS1 HS2 Ho1 Ho2 HC. destruct (shape_sdt _ _ _ HC) as (a & b & c & E).
  destruct (matmul_ok HK N S1 S2 v1 o1 z1 v2 o2 z2 C a b c) as (v & o & z & cnt & E1 & HI); auto.
  exists v, o, z. rewrite !diagonals_sdi. split; [exact E1|]. split; [|split].
  - intros s Hs. destruct (Z.lt_ge_cases s cnt).
    + apply (inv_used _ _ _ _ _ _ _ _ HI s). lia.
    + destruct (inv_free _ _ _ _ _ _ _ _ HI s ltac:(lia)) as [-> _]. lia.
  - intros s i Hs Hi Ez. destruct (Z.lt_ge_cases s cnt).
    + destruct (inv_used _ _ _ _ _ _ _ _ HI s ltac:(lia)) as [_ E2]. congruence.
    + apply (inv_free _ _ _ _ _ _ _ _ HI s); lia.
  - intros i j Hi Hj. split.
    + exact (inv_sum _ _ _ _ _ _ _ _ HI i j Hi Hj).
    + exact (Inv_get N (S1 * S2) _ v o z cnt i j HN ltac:(nia) HI Hi Hj).
Qed.

End Props.

Section PropsC.
Context {K : ops} (HK : lawful K).
Let HR : ring_theory (@o0 K) o1 oadd omul osub oopp eq := HK.
Add Ring Kpc : HR.
Implicit Types (v : Z -> Z -> K) (o : Z -> Z) (z : Z -> bool).

Lemma reals_cvec N S (v : Z -> Z -> Cops K) o i j : dense N S (cvec (reals v) (imags v)) o i j = dense N S v o i j.
Proof. unfold dense. apply gsum_ext. intros s Hs. unfold cvec, reals, imags, mk. destruct (v s i); reflexivity. Qed.

(** complex product; the result again satisfies the hypotheses, so products can be chained *)
Theorem C48_matmul_complex N S1 S2 vr1 vi1 o1 oi1 zr1 zi1 vr2 vi2 o2 oi2 zr2 zi2 (Cr Ci : sd K) :
  0 < N <= 2 ^ 30 -> 0 <= S1 -> 0 <= S2 ->
  flags_right N S1 vr1 vi1 o1 oi1 zr1 zi1 -> flags_right N S2 vr2 vi2 o2 oi2 zr2 zi2 ->
  shape N (S1 * S2) Cr -> shape N (S1 * S2) Ci ->
  exists vr vi o z,
    matmul2 N S1 S2 (diagonals N S1 vr1 o1 zr1) (diagonals N S1 vi1 oi1 zi1)
                    (diagonals N S2 vr2 o2 zr2) (diagonals N S2 vi2 oi2 zi2) Cr Ci
    = Ok (diagonals N (S1 * S2) vr o z, diagonals N (S1 * S2) vi o z) /\
    flags_right N (S1 * S2) vr vi o o z z /\ offsets_in N (S1 * S2) o /\ distinct_live (S1 * S2) o z /\
    forall i j, 0 <= i < N -> 0 <= j < N ->
      cmat (matrix_of N (S1 * S2) vr o) (matrix_of N (S1 * S2) vi o) i j
      = product N (cmat (matrix_of N S1 vr1 o1) (matrix_of N S1 vi1 oi1)) (cmat (matrix_of N S2 vr2 o2) (matrix_of N S2 vi2 oi2)) i j.
Proof.
  intros HN HS1 HS2 F1 F2 HCr HCi. apply flags_fits in F1. apply flags_fits in F2.
  destruct (shape_sdt _ _ _ HCr) as (a & b & c & E). destruct (shape_sdt _ _ _ HCi) as (a' & b' & c' & E').
  destruct (matmul2_ok HK N S1 S2 vr1 vi1 o1 oi1 zr1 zi1 vr2 vi2 o2 oi2 zr2 zi2 Cr Ci a b c a' b' c') as (v & o & z & cnt & E1 & HI); auto.
  exists (reals v), (imags v), o, z. rewrite !diagonals_sdi. split; [exact E1|].
  assert (Hoff : offsets_in N (S1 * S2) o).
  { intros s Hs. destruct (Z.lt_ge_cases s cnt).
    - apply (inv_used _ _ _ _ _ _ _ _ HI s). lia.
    - destruct (inv_free _ _ _ _ _ _ _ _ HI s ltac:(lia)) as [-> _]. lia. }
  assert (HF : flags_right N (S1 * S2) (reals v) (imags v) o o z z).
  { intros s Hs. rewrite andb_diag. destruct (z s) eqn:Ez.
    - intros i Hi. destruct (Z.lt_ge_cases s cnt).
      + destruct (inv_used _ _ _ _ _ _ _ _ HI s ltac:(lia)) as [_ E2]. congruence.
      + destruct (inv_free _ _ _ _ _ _ _ _ HI s ltac:(lia)) as (_ & _ & E2). unfold reals, imags. rewrite E2 by auto. split; reflexivity.
    - split; auto. }
  split; [exact HF|]. split; [exact Hoff|]. split.
  { intros s t Hs Ht Es Et E2. apply (inv_dist _ _ _ _ _ _ _ _ HI); auto.
    - destruct (Z.lt_ge_cases s cnt); [lia|]. destruct (inv_free _ _ _ _ _ _ _ _ HI s ltac:(lia)) as (_ & ? & _). congruence.
    - destruct (Z.lt_ge_cases t cnt); [lia|]. destruct (inv_free _ _ _ _ _ _ _ _ HI t ltac:(lia)) as (_ & ? & _). congruence. }
  intros i j Hi Hj.
  pose proof (inv_sum _ _ _ _ _ _ _ _ HI i j Hi Hj) as Hs. cbv beta in Hs. unfold cmat at 1. unfold matrix_of at 1 2.
  change (mk K (dense N (S1 * S2) (reals v) o i j) (dense N (S1 * S2) (imags v) o i j)
    = product N (cmat (matrix_of N S1 vr1 o1) (matrix_of N S1 vi1 oi1)) (cmat (matrix_of N S2 vr2 o2) (matrix_of N S2 vi2 oi2)) i j).
  rewrite <- (fits_dense N (S1 * S2) (reals v) (imags v) o o z z i j Hi (flags_fits _ _ _ _ _ _ _ _ HF)).
  rewrite reals_cvec, Hs.
  unfold product. apply gsum_ext. intros k Hk.
  rewrite (fits_dense _ _ _ _ _ _ _ _ i k Hi F1), (fits_dense _ _ _ _ _ _ _ _ k j Hk F2). reflexivity.
Qed.

(** ** C50 *)

(** matrix.h version: three diagonals, both parts with the same offsets *)
Theorem C50_mvp3 n (x : Z -> Cops K) vr vi o zr zi a b : 0 < n <= 2 ^ 30 -> offsets_in n 3 o -> cells n a -> cells n b ->
  mvp3 n (fst (carray n x)) (snd (carray n x)) (diagonals n 3 vr o zr) (diagonals n 3 vi o zi) a b
  = Ok (carray n (apply n (cmat (matrix_of n 3 vr o) (matrix_of n 3 vi o)) x)).
Proof.
  intros Hn Ho Ha Hb. destruct (cells_tab n a Ha) as [ga ->]. destruct (cells_tab n b Hb) as [gb ->].
  rewrite !diagonals_sdi, !carray_cvtab. unfold cvtab at 1 2. cbn [fst snd].
  rewrite (mvp3_ok HK) by auto. f_equal. apply cvtab_ext. intros i Hi. unfold apply. apply gsum_ext. intros j Hj.
  f_equal. unfold dense. rewrite gsum_c by auto. unfold cmat, matrix_of, ondiag. f_equal; apply gsum_ext; intros s Hs; destruct (_ =? 0); reflexivity.
Qed.

(** message.h version for SparseDiagonal *)
Theorem C50_msg_mvp n S (x : Z -> Cops K) vr vi o oi zr zi p : 0 < n <= 2 ^ 30 -> 0 <= S ->
  flags_right n S vr vi o oi zr zi -> carray_of n p ->
  msg_mvp n S (carray n x) (diagonals n S vr o zr) (diagonals n S vi oi zi) p
  = Ok (carray n (apply n (cmat (matrix_of n S vr o) (matrix_of n S vi oi)) x)).
Proof.
  intros Hn HS HF [Ha Hb]. destruct p as [pa pb]; cbn [fst snd] in *.
  destruct (cells_tab n pa Ha) as [ga ->]. destruct (cells_tab n pb Hb) as [gb ->]. apply flags_fits in HF.
  rewrite !diagonals_sdi, !carray_cvtab. rewrite (msg_mvp_ok HK) by auto. f_equal. apply cvtab_ext. intros i Hi.
  unfold apply. apply gsum_ext. intros j Hj. f_equal. exact (fits_dense _ _ _ _ _ _ _ _ i j Hi HF).
Qed.

(** message.h version for Kd consecutive diagonals *)
Theorem C50_msg_mvp_dense n Kd (x : Z -> Cops K) (A : Z -> Z -> Cops K) p : 0 < n <= 2 ^ 30 -> 0 <= Kd <= 2 ^ 30 ->
  carray_of n p ->
  msg_mvp_dense n Kd (carray n x) (map (fun k => carray n (A k)) (range Kd)) p
  = Ok (carray n (apply n (matrix_of n Kd A (fun k => k)) x)).
Proof.
  intros Hn HS [Ha Hb]. destruct p as [pa pb]; cbn [fst snd] in *.
  destruct (cells_tab n pa Ha) as [ga ->]. destruct (cells_tab n pb Hb) as [gb ->].
  rewrite map_range. rewrite (tab_ext Kd _ (fun k => cvtab n (A k))) by (intros; apply carray_cvtab).
  rewrite !carray_cvtab. rewrite (msg_mvp_dense_ok HK) by auto. reflexivity.
Qed.

(** ** C49 *)

(** With flags that are right for both operands and for the sum, += is addition for the matrix-vector product. *)
Theorem C49_add_partial n S (x : Z -> Cops K) vr vi o zr zi wr wi yr yi p : 0 < n <= 2 ^ 30 -> 0 <= S ->
  offsets_in n S o ->
  flags_right n S vr vi o o zr zi -> flags_right n S wr wi o o yr yi ->
  (forall s, 0 <= s < S -> zr s && zi s = true -> yr s && yi s = true) ->
  carray_of n p ->
  exists Ar Ai, sd_add n S (diagonals n S vr o zr) (diagonals n S wr o yr) = Ok Ar /\
    sd_add n S (diagonals n S vi o zi) (diagonals n S wi o yi) = Ok Ai /\
    msg_mvp n S (carray n x) Ar Ai p
    = Ok (carray n (fun i => (apply n (cmat (matrix_of n S vr o) (matrix_of n S vi o)) x i
                             + apply n (cmat (matrix_of n S wr o) (matrix_of n S wi o)) x i)%num)).
Proof.
  intros Hn HS Ho HF HG Hz Hp.
  exists (diagonals n S (fun s i => (vr s i + wr s i)%num) o zr), (diagonals n S (fun s i => (vi s i + wi s i)%num) o zi).
  split; [|split].
  - rewrite !diagonals_sdi. apply sd_add_ok; auto; lia.
  - rewrite !diagonals_sdi. apply sd_add_ok; auto; lia.
  - rewrite C50_msg_mvp; auto.
    + f_equal. rewrite !carray_cvtab. apply cvtab_ext. intros i Hi. unfold apply. rewrite <- (gsum_add (Clawful HK)).
      apply gsum_ext. intros j Hj. unfold cmat, matrix_of.
      rewrite (gsum_ext S (fun s => if (j - i - o s) mod n =? 0 then (vr s i + wr s i)%num else 0%num)
        (fun s => ((if (j - i - o s) mod n =? 0 then vr s i else 0) + (if (j - i - o s) mod n =? 0 then wr s i else 0))%num))
        by (intros s Hs; destruct (_ =? 0); ring).
      rewrite (gsum_ext S (fun s => if (j - i - o s) mod n =? 0 then (vi s i + wi s i)%num else 0%num)
        (fun s => ((if (j - i - o s) mod n =? 0 then vi s i else 0) + (if (j - i - o s) mod n =? 0 then wi s i else 0))%num))
        by (intros s Hs; destruct (_ =? 0); ring).
      rewrite !gsum_add by auto. apply c_eq; unfold cre, cim; cbn; ring.
    + intros s Hs. specialize (HF s Hs). specialize (HG s Hs). specialize (Hz s Hs).
      destruct (zr s && zi s).
      * rewrite (Hz eq_refl) in HG. intros i Hi. destruct (HF i Hi) as [-> ->]. destruct (HG i Hi) as [-> ->]. split; ring.
      * auto.
Qed.
End PropsC.

(** In general it is not: adding to a matrix whose flags say zero gives a matrix that still acts as zero. *)
Definition ex_one (n : Z) : sd Zops := diagonals n 1 (fun _ _ => 1) (fun _ => 0) (fun _ => false).
Definition ex_zero (n : Z) : sd Zops := diagonals n 1 (fun _ _ => 0) (fun _ => 0) (fun _ => true).
Theorem C49_add_refuted : exists (A B A' Z' : sd Zops) (x : Z -> Cops Zops) p r1 r2 r3,
  sd_setzero 4 1 (sd_new Zops 4 1) = Ok A /\ B = diagonals 4 1 (fun _ _ => 1) (fun _ => 0) (fun _ => false) /\
  Z' = A /\ sd_add 4 1 A B = Ok A' /\
  msg_mvp 4 1 (carray 4 x) A Z' p = Ok r1 /\ msg_mvp 4 1 (carray 4 x) B Z' p = Ok r2 /\
  msg_mvp 4 1 (carray 4 x) A' Z' p = Ok r3 /\
  r1 = carray 4 (fun _ => 0%num) /\ r2 = carray 4 x /\ r3 = carray 4 (fun _ => 0%num) /\ r2 <> r3.
Proof.
  exists (ex_zero 4), (ex_one 4), (diagonals 4 1 (fun _ _ => 1) (fun _ => 0) (fun _ => true)), (ex_zero 4),
    (fun i => mk Zops (i + 1) 0), (gfresh Z 4, gfresh Z 4). do 3 eexists.
  repeat split; try (vm_compute; reflexivity). vm_compute. discriminate.
Qed.

(** ** C47: transpose with a negative offset leaves the diagonal where it is *)
Theorem C69_transpose_negative_refuted : exists N (A A' : sd Zops) i j x y,
  A = diagonals N 1 (fun _ i => i + 1) (fun _ => -1) (fun _ => false) /\
  sd_transpose N 1 A = Ok A' /\ 0 <= i < N /\ 0 <= j < N /\
  get_element N 1 A j i = Ok x /\ get_element N 1 A' i j = Ok y /\ x <> y.
Proof.
  exists 4, (diagonals 4 1 (fun _ i => i + 1) (fun _ => -1) (fun _ => false) : sd Zops). eexists. exists 0, 1. do 2 eexists.
  split; [reflexivity|]. split; [vm_compute; reflexivity|]. split; [lia|]. split; [lia|].
  split; [vm_compute; reflexivity|]. split; [vm_compute; reflexivity|]. discriminate.
Qed.

(** ** C48: with a negative offset in the left operand MatMul reads outside its argument *)
Theorem C69_matmul_negative_refuted : exists (A B : sd Zops),
  A = diagonals 4 1 (fun _ _ => 1) (fun _ => -1) (fun _ => false) /\
  B = diagonals 4 1 (fun _ _ => 1) (fun _ => 1) (fun _ => false) /\
  matmul 4 1 1 A B (sd_new Zops 4 1) = Undef.
Proof. do 2 eexists. repeat split. Qed.

(** ** C59 *)

(** aggregate reads outside its second argument, whatever the messages. *)
Theorem C59_aggregate_undefined {K : ops} n (x y : Z -> Cops K) p : 0 < n -> carray_of (2 * n) p ->
  aggregate n (carray n x) (carray n y) p = Undef.
Proof.
  intros Hn [Ha Hb]. destruct p as [pa pb]; cbn [fst snd] in *.
  destruct (cells_tab _ pa Ha) as [ga ->]. destruct (cells_tab _ pb Hb) as [gb ->]. rewrite !carray_cvtab.
  unfold aggregate. rewrite (for_split _ 0 n) by lia.
  rewrite (for_closed _ (fun i => (tab (2 * n) (fun j => if j <? i then Some (cre K (x j)) else ga j),
      tab (2 * n) (fun j => if j <? i then Some (cim K (x j)) else gb j))) _ _ _
      (tab (2 * n) (fun j => if j <? n then Some (cre K (x j)) else ga j),
      tab (2 * n) (fun j => if j <? n then Some (cim K (x j)) else gb j))); auto; try lia.
  - cbn [bind]. rewrite for_step by lia. destruct (Z.ltb_spec n n); [lia|]. cbn [cvtab fst snd].
    unfold grd at 1. rewrite lget_out; [reflexivity|]. unfold gtab. rewrite tab_length. lia.
  - f_equal; apply tab_ext; intros j Hj; destruct (Z.ltb_spec j 0); auto; lia.
  - intros i Hi. destruct (Z.ltb_spec i n); [|lia]. cbn [cvtab fst snd]. rewrite !grd_gtab by auto. cbn [bind].
    rewrite !gwr_tab by lia. cbn [bind]. apply f_equal. apply f_equal2; apply tab_ext; intros j Hj;
      destruct (Z.eqb_spec j i), (Z.ltb_spec j i), (Z.ltb_spec j (i + 1)); try lia; subst; auto.
Qed.
Theorem C59_aggregate_refuted : exists n (z1 z2 z3 : list (option Zops) * list (option Zops)),
  carray_of n z1 /\ carray_of n z2 /\ carray_of (2 * n) z3 /\ aggregate n z1 z2 z3 = Undef.
Proof.
  exists 2, (carray 2 (fun i => mk Zops i 0)), (carray 2 (fun i => mk Zops i 1)), (gfresh Z 4, gfresh Z 4).
  repeat split.
Qed.
