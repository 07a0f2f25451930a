(** MatMul and the matrix-vector products compute the dense products. *)
From Coq Require Import ZArith List Bool Lia Ring.
From Verif Require Import Base BaseFacts GSum Matrix MatrixFacts.
Import ListNotations.
Open Scope Z_scope.

(** entry (i,j): the sum of the stored diagonals through it *)
Definition dense {K : ops} (N S : Z) (v : Z -> Z -> K) (o : Z -> Z) (i j : Z) : K :=
  gsum S (fun s => if ondiag N i j (o s) then v s i else 0%num).

Section Inv.
Context {K : ops} (HK : lawful K).
Let HR : ring_theory (@o0 K) o1 oadd omul osub oopp eq := HK.
Add Ring Kmm : HR.

Record Inv (N S cap : Z) (f : Z -> Z -> K) (v : Z -> Z -> K) (o : Z -> Z) (z : Z -> bool) (count : Z) : Prop := {
  inv_count : 0 <= count <= cap;
  inv_used : forall k, 0 <= k < count -> 0 <= o k < N /\ z k = false;
  inv_dist : forall k l, 0 <= k < count -> 0 <= l < count -> o k = o l -> k = l;
  inv_free : forall k, count <= k < S -> o k = 0 /\ z k = true /\ forall i, 0 <= i < N -> v k i = 0%num;
  inv_sum : forall i j, 0 <= i < N -> 0 <= j < N -> dense N S v o i j = f i j }.

Definition addrow (v : Z -> Z -> K) (s : Z) (d : Z -> K) : Z -> Z -> K :=
  fun t i => if t =? s then (v t i + d i)%num else v t i.

Lemma Inv_start N S v o z : 0 <= N -> (forall s i, 0 <= s < S -> 0 <= i < N -> v s i = 0%num) ->
  (forall s, 0 <= s < S -> o s = 0) -> (forall s, 0 <= s < S -> z s = true) -> Inv N S 0 (fun _ _ => 0%num) v o z 0.
Proof.
  intros HN Hv Ho Hz. constructor; try (intros; lia).
  - intros k Hk. split; [auto|]. split; [auto|]. intros. apply Hv; auto.
  - intros i j Hi Hj. apply gsum_zero; auto. intros s Hs. destruct ondiag; auto.
Qed.

Lemma Inv_f N S cap f g v o z c : (forall i j, 0 <= i < N -> 0 <= j < N -> f i j = g i j) -> Inv N S cap f v o z c -> Inv N S cap g v o z c.
Proof. intros H [H1 H2 H3 H4 H5]. constructor; auto. intros i j Hi Hj. rewrite <- H by auto. auto. Qed.
Lemma Inv_cap N S cap cap' f v o z c : cap <= cap' -> Inv N S cap f v o z c -> Inv N S cap' f v o z c.
Proof. intros H [H1 H2 H3 H4 H5]. constructor; auto. lia. Qed.

Definition plus1 (N : Z) (f : Z -> Z -> K) (off3 : Z) (d : Z -> K) : Z -> Z -> K :=
  fun i j => (f i j + (if ondiag N i j off3 then d i else 0))%num.

Lemma dense_addrow N S v o s d i j : 0 <= s < S ->
  dense N S (addrow v s d) o i j = (dense N S v o i j + (if ondiag N i j (o s) then d i else 0))%num.
Proof.
  intros Hs. unfold dense.
  rewrite (gsum_ext _ _ (fun t => (if ondiag N i j (o t) then v t i else 0) + (if t =? s then if ondiag N i j (o t) then d i else 0 else 0))%num).
  - rewrite gsum_add by auto. rewrite gsum_delta by auto. reflexivity.
  - intros t Ht. unfold addrow. destruct (Z.eqb_spec t s); destruct ondiag; ring.
Qed.

Lemma Inv_old N S cap f v o z c s3 d : c <= S -> 0 <= s3 < c -> Inv N S cap f v o z c ->
  Inv N S cap (plus1 N f (o s3) d) (addrow v s3 d) o z c.
Proof.
  intros Hc Hs [H1 H2 H3 H4 H5]. constructor; auto.
  - intros k Hk. destruct (H4 k Hk) as (E1 & E2 & E3). split; [auto|]. split; [auto|]. intros i Hi.
    unfold addrow. destruct (Z.eqb_spec k s3); [lia|auto].
  - intros i j Hi Hj. rewrite dense_addrow by lia. rewrite H5 by auto. reflexivity.
Qed.

Lemma Inv_new N S cap f v o z c off3 d : c < S -> 0 <= off3 < N -> (forall k, 0 <= k < c -> o k <> off3) -> Inv N S cap f v o z c ->
  Inv N S (cap + 1) (plus1 N f off3 d) (addrow v c d) (up1 o c off3) (up1 z c false) (c + 1).
Proof.
  intros Hc Ho Hn [H1 H2 H3 H4 H5]. constructor; try lia.
  - intros k Hk. unfold up1. destruct (Z.eqb_spec k c); auto. apply H2. lia.
  - intros k l Hk Hl. unfold up1. destruct (Z.eqb_spec k c), (Z.eqb_spec l c); intros E; subst; auto.
    + exfalso. apply (Hn l); [lia|auto].
    + exfalso. apply (Hn k); [lia|auto].
    + apply H3; auto; lia.
  - intros k Hk. destruct (H4 k ltac:(lia)) as (E1 & E2 & E3). unfold up1, addrow.
    destruct (Z.eqb_spec k c); [lia|auto].
  - intros i j Hi Hj. rewrite dense_addrow by lia. unfold plus1. rewrite <- H5 by auto.
    f_equal; [|unfold up1; rewrite Z.eqb_refl; reflexivity].
    apply gsum_ext. intros s Hs. unfold up1. destruct (Z.eqb_spec s c); auto. subst s.
    destruct (H4 c ltac:(lia)) as (E1 & E2 & E3). rewrite (E3 i Hi). destruct ondiag, ondiag; auto.
Qed.

Lemma find_off_ok N S v o z c off3 : 0 <= c <= S -> exists r, find_off (sdi (F := K) N S v o z) c off3 = Ok r /\
  ((r = -1 /\ forall k, 0 <= k < c -> o k <> off3) \/ (0 <= r < c /\ o r = off3)).
Proof.
  intros Hc. unfold find_off.
  apply (for_inv _ (fun k s3 => (s3 = -1 /\ forall t, 0 <= t < k -> o t <> off3) \/ (0 <= s3 < k /\ o s3 = off3))); [lia| |].
  - left. split; [auto|]. intros; lia.
  - intros k s3 Hk [[-> H]|[H1 H2]].
    + rewrite (Z.eqb_refl (-1)). rewrite get_off_sdi by lia. cbn [bind]. eexists. split; [reflexivity|].
      destruct (Z.eqb_spec (o k) off3).
      * right. split; [lia|auto].
      * left. split; [auto|]. intros t Ht. destruct (Z.eq_dec t k); [subst; auto|apply H; lia].
    + destruct (Z.eqb_spec s3 (-1)); [lia|]. eexists. split; [reflexivity|]. right. split; [lia|auto].
Qed.

Lemma find_off2_ok N S v1 v2 o z1 z2 c off3 : 0 <= c <= S ->
  exists r, find_off2 (sdi (F := K) N S v1 o z1) (sdi N S v2 o z2) c off3 = Ok r /\
  ((r = -1 /\ forall k, 0 <= k < c -> o k <> off3) \/ (0 <= r < c /\ o r = off3)).
Proof.
  intros Hc. unfold find_off2.
  apply (for_inv _ (fun k s3 => (s3 = -1 /\ forall t, 0 <= t < k -> o t <> off3) \/ (0 <= s3 < k /\ o s3 = off3))); [lia| |].
  - left. split; [auto|]. intros; lia.
  - intros k s3 Hk [[-> H]|[H1 H2]].
    + rewrite (Z.eqb_refl (-1)). rewrite !get_off_sdi by lia. cbn [bind]. rewrite Z.eqb_refl. cbn [assert_ bind].
      eexists. split; [reflexivity|].
      destruct (Z.eqb_spec (o k) off3).
      * right. split; [lia|auto].
      * left. split; [auto|]. intros t Ht. destruct (Z.eq_dec t k); [subst; auto|apply H; lia].
    + destruct (Z.eqb_spec s3 (-1)); [lia|]. eexists. split; [reflexivity|]. right. split; [lia|auto].
Qed.

(** what the pairs (s1,s2) with s1 < a (and s1 = a, s2 < b) contribute *)
Definition pairs (N S2 : Z) (d : Z -> Z -> Z -> K) (off3 : Z -> Z -> Z) (a b : Z) (i j : Z) : K :=
  (gsum a (fun s1 => gsum S2 (fun s2 => if ondiag N i j (off3 s1 s2) then d s1 s2 i else 0)) +
   gsum b (fun s2 => if ondiag N i j (off3 a s2) then d a s2 i else 0))%num.

Lemma pairs_step N S2 d off3 a b i j : 0 <= b ->
  pairs N S2 d off3 a (b + 1) i j = plus1 N (pairs N S2 d off3 a b) (off3 a b) (d a b) i j.
Proof. intros Hb. unfold pairs, plus1. rewrite gsum_S by lia. ring. Qed.
Lemma pairs_row N S2 d off3 a i j : 0 <= a -> pairs N S2 d off3 a S2 i j = pairs N S2 d off3 (a + 1) 0 i j.
Proof. intros Ha. unfold pairs. rewrite gsum_S by lia. rewrite (gsum_0 0) by lia. ring. Qed.

(** the sum over all pairs is the product *)
Lemma pairs_product N S1 S2 v1 o1 v2 o2 i j : 0 < N -> 0 <= i < N -> 0 <= j < N ->
  pairs N S2 (fun s1 s2 i => (v1 s1 i * v2 s2 ((i + o1 s1) mod N))%num) (fun s1 s2 => (o1 s1 + o2 s2) mod N) S1 0 i j
  = gsum N (fun k => (dense N S1 v1 o1 i k * dense N S2 v2 o2 k j)%num).
Proof.
  intros HN Hi Hj. unfold pairs. rewrite (gsum_0 0) by lia.
  transitivity (gsum S1 (fun s1 => (v1 s1 i * dense N S2 v2 o2 ((i + o1 s1) mod N) j)%num)).
  - transitivity (gsum S1 (fun s1 => gsum S2 (fun s2 => if ondiag N i j ((o1 s1 + o2 s2) mod N)
        then (v1 s1 i * v2 s2 ((i + o1 s1) mod N))%num else 0%num))); [ring|].
    apply gsum_ext. intros s1 Hs1. unfold dense. rewrite <- gsum_scale by auto. apply gsum_ext. intros s2 Hs2.
    replace (ondiag N i j ((o1 s1 + o2 s2) mod N)) with (ondiag N ((i + o1 s1) mod N) j (o2 s2)).
    + destruct ondiag; [auto|ring].
    + rewrite !ondiag_iff by lia. rewrite Zplus_mod_idemp_l, Zplus_mod_idemp_r. f_equal. f_equal. lia.
  - rewrite (gsum_ext N _ (fun k => gsum S1 (fun s1 => (if ondiag N i k (o1 s1) then v1 s1 i else 0) * dense N S2 v2 o2 k j)%num)).
    2:{ intros k Hk. unfold dense at 1. rewrite <- gsum_scale_r by auto. reflexivity. }
    rewrite gsum_swap by auto. apply gsum_ext. intros s1 Hs1.
    rewrite (gsum_single HK N ((i + o1 s1) mod N)).
    + rewrite ondiag_iff by (try apply Z.mod_pos_bound; lia). rewrite Z.eqb_refl. reflexivity.
    + apply Z.mod_pos_bound. lia.
    + intros k Hk Hne. rewrite ondiag_iff by lia. destruct (Z.eqb_spec k ((i + o1 s1) mod N)); [contradiction|ring].
Qed.
End Inv.

Section Real.
Context {K : ops} (HK : lawful K).
Let HR : ring_theory (@o0 K) o1 oadd omul osub oopp eq := HK.
Add Ring Kmr : HR.

Definition offs (N S : Z) (o : Z -> Z) := forall s, 0 <= s < S -> 0 <= o s < N.

Lemma addrow_loop N S (v : Z -> Z -> K) o z s (d : Z -> K) body : 0 <= N -> 0 <= s < S ->
  (forall i w, 0 <= i < N -> body i (sdi N S w o z) = set_vec (sdi N S w o z) s i (w s i + d i)%num) ->
  for_ 0 N body (sdi N S v o z) = Ok (sdi N S (addrow v s d) o z).
Proof.
  intros HN Hs H.
  rewrite (for_closed _ (fun i => sdi N S (fun t j => if (t =? s) && (j <? i) then (v t j + d j)%num else v t j) o z) _ _ _
    (sdi N S (addrow v s d) o z)); auto; try lia.
  - apply sdi_ext; auto. intros t j _ Hj. destruct (Z.ltb_spec j 0); [lia|]. rewrite andb_false_r. auto.
  - apply sdi_ext; auto. intros t j _ Hj. unfold addrow. destruct (Z.ltb_spec j N); [|lia]. rewrite andb_true_r. auto.
  - intros i Hi. rewrite H by auto. rewrite set_vec_sdi by auto. f_equal. apply sdi_ext; auto. intros t j _ Hj. unfold up2.
    destruct (Z.eqb_spec t s); cbn [andb]; auto. subst t. rewrite Z.eqb_refl. cbn [andb].
    destruct (Z.eqb_spec j i), (Z.ltb_spec j i), (Z.ltb_spec j (i + 1)); try lia; subst; auto.
    destruct (Z.ltb_spec i i); [lia|auto].
Qed.

Theorem matmul_ok N S1 S2 v1 o1 z1 v2 o2 z2 C a0 b0 c0 : 0 < N <= 2 ^ 30 -> 0 <= S1 -> 0 <= S2 ->
  offs N S1 o1 -> offs N S2 o2 -> C = sdt N (S1 * S2) a0 b0 c0 ->
  exists v o z c, matmul N S1 S2 (sdi (F := K) N S1 v1 o1 z1) (sdi N S2 v2 o2 z2) C = Ok (sdi N (S1 * S2) v o z) /\
    Inv N (S1 * S2) (S1 * S2) (fun i j => gsum N (fun k => (dense N S1 v1 o1 i k * dense N S2 v2 o2 k j)%num)) v o z c.
Proof.
  intros HN HS1 HS2 Ho1 Ho2 EC. unfold matmul. rewrite (sd_setzero_ok N (S1 * S2) C a0 b0 c0) by (auto; nia). cbn [bind].
  set (d := fun s1 s2 i => (v1 s1 i * v2 s2 ((i + o1 s1) mod N))%num : K).
  set (off3 := fun s1 s2 => (o1 s1 + o2 s2) mod N).
  match goal with |- context [for_ 0 S1 ?b ?s] => set (body := b); set (st0 := s) end.
  assert (H : exists st, for_ 0 S1 body st0 = Ok st /\
     (exists v o z, fst st = sdi N (S1 * S2) v o z /\ Inv N (S1 * S2) (S1 * S2) (pairs N S2 d off3 S1 0) v o z (snd st))).
  { apply (for_inv body (fun a st => exists v o z, fst st = sdi N (S1 * S2) v o z /\
        Inv N (S1 * S2) (a * S2) (pairs N S2 d off3 a 0) v o z (snd st))); [lia| |].
    - unfold st0. cbn [fst snd]. do 3 eexists. split; [reflexivity|].
      eapply Inv_f; [|apply Inv_start; auto; lia]. intros i j Hi Hj. unfold pairs. rewrite !gsum_0 by lia. ring.
    - intros a [C' count'] Ha (v & o & z & EC' & HI). cbn [fst snd] in *. subst C'. unfold body at 1. cbv beta iota.
      destruct (for_inv (fun s2 '(C, count) =>
        off1 <- get_off (sdi N S1 v1 o1 z1) a ;; off2 <- get_off (sdi N S2 v2 o2 z2) s2 ;;
        t <- int_ (off1 + off2) ;; off3 <- imod t N ;;
        s3 <- find_off C count off3 ;;
        '(C, s3, count) <-
         (if s3 =? -1 then
            C <- set_zero C count false ;; C <- set_off C count off3 ;; Ok (C, count, count + 1)
          else Ok (C, s3, count)) ;;
        C <- for_ 0 N (fun i C =>
             c <- get_vec C s3 i ;; x <- get_vec (sdi N S1 v1 o1 z1) a i ;;
             t <- int_ (i + off1) ;; k <- imod t N ;; y <- get_vec (sdi N S2 v2 o2 z2) s2 k ;;
             set_vec C s3 i (c + x * y)%num) C ;;
        Ok (C, count))
        (fun b st => exists v o z, fst st = sdi N (S1 * S2) v o z /\
           Inv N (S1 * S2) (a * S2 + b) (pairs N S2 d off3 a b) v o z (snd st))
        0 S2 (sdi N (S1 * S2) v o z, count')) as (st & E & v' & o' & z' & E' & HI').
      + auto.
      + exists v, o, z. split; [reflexivity|]. cbn [snd]. rewrite Z.add_0_r. exact HI.
      + clear v o z HI count'. intros b [C' count] Hb (v & o & z & EC' & HI). cbn [fst snd] in *. subst C'.
        pose proof (Ho1 a Ha). pose proof (Ho2 b Hb). pose proof (inv_count _ _ _ _ _ _ _ _ HI).
        assert (Hcap : a * S2 + b < S1 * S2) by nia.
        rewrite !get_off_sdi by auto. cbn [bind]. rewrite int_in by lia. cbn [bind]. rewrite imod_ok by lia. cbn [bind].
        rewrite Z.rem_mod_nonneg by lia.
        destruct (find_off_ok N (S1 * S2) v o z count ((o1 a + o2 b) mod N)) as (r & Er & Hr); [lia|].
        rewrite Er. cbn [bind].
        assert (Hrow : forall (v : Z -> Z -> K) o z s3, 0 <= s3 < S1 * S2 ->
          for_ 0 N (fun i C =>
             c <- get_vec C s3 i ;; x <- get_vec (sdi N S1 v1 o1 z1) a i ;;
             t <- int_ (i + o1 a) ;; k <- imod t N ;; y <- get_vec (sdi N S2 v2 o2 z2) b k ;;
             set_vec C s3 i (c + x * y)%num) (sdi N (S1 * S2) v o z) = Ok (sdi N (S1 * S2) (addrow v s3 (d a b)) o z)).
        { intros vv oo zz s3 Hs3. apply addrow_loop; auto; [lia|]. intros i w Hi. rewrite get_vec_sdi by auto. cbn [bind].
          rewrite get_vec_sdi by auto. cbn [bind]. rewrite int_in by lia. cbn [bind]. rewrite imod_ok by lia. cbn [bind].
          rewrite Z.rem_mod_nonneg by lia. rewrite get_vec_sdi by (auto; apply Z.mod_pos_bound; lia). cbn [bind]. reflexivity. }
        destruct Hr as [[-> Hr]|[Hr Hr2]].
        * rewrite Z.eqb_refl. rewrite set_zero_sdi by lia. cbn [bind]. rewrite set_off_sdi by lia. cbn [bind].
          rewrite Hrow by lia. cbn [bind]. eexists. split; [reflexivity|]. cbn [fst snd]. do 3 eexists. split; [reflexivity|].
          eapply Inv_f. { intros i j Hi Hj. symmetry. apply pairs_step; auto. lia. }
          rewrite Z.add_assoc. apply Inv_new; auto; try lia. unfold off3. apply Z.mod_pos_bound. lia.
        * destruct (Z.eqb_spec r (-1)); [lia|]. cbn [bind]. rewrite Hrow by lia. cbn [bind].
          eexists. split; [reflexivity|]. cbn [fst snd]. do 3 eexists. split; [reflexivity|].
          eapply Inv_f. { intros i j Hi Hj. symmetry. apply pairs_step; auto. lia. }
          apply (Inv_cap N (S1 * S2) (a * S2 + b)); [lia|].
          unfold off3. rewrite <- Hr2. apply Inv_old; auto; lia.
      + exists st. split; [exact E|]. exists v', o', z'. split; [auto|].
        eapply Inv_f. { intros i j Hi Hj. apply pairs_row; auto. lia. }
        replace ((a + 1) * S2) with (a * S2 + S2) by lia. exact HI'. }
  destruct H as ([C' c] & E & v & o & z & E' & HI). cbn [fst snd] in *. subst C'. rewrite E. cbn [bind].
  exists v, o, z, c. split; [reflexivity|]. eapply Inv_f; [|exact HI].
  intros i j Hi Hj. unfold d, off3. apply pairs_product; auto. lia.
Qed.
End Real.

Section Cplx.
Context {K : ops} (HK : lawful K).
Let HR : ring_theory (@o0 K) o1 oadd omul osub oopp eq := HK.
Add Ring Kmc : HR.
Let HC := Clawful HK.

Definition reals (v : Z -> Z -> Cops K) : Z -> Z -> K := fun s i => cre K (v s i).
Definition imags (v : Z -> Z -> Cops K) : Z -> Z -> K := fun s i => cim K (v s i).
Definition cvec (vr vi : Z -> Z -> K) : Z -> Z -> Cops K := fun s i => mk K (vr s i) (vi s i).

(** Real and imaginary parts of a complex matrix fit together: the offsets agree except for diagonals marked zero
    in both parts, and those are zero. *)
Record fits (N S : Z) (vr vi : Z -> Z -> K) (o oi : Z -> Z) (zr zi : Z -> bool) : Prop := {
  fit_off : forall s, 0 <= s < S -> (zr s && zi s) = false -> 0 <= o s < N /\ oi s = o s;
  fit_zero : forall s i, 0 <= s < S -> 0 <= i < N -> (zr s && zi s) = true -> vr s i = 0%num /\ vi s i = 0%num }.

Lemma fits_dense N S vr vi o oi zr zi i j : 0 <= i < N -> fits N S vr vi o oi zr zi ->
  dense N S (cvec vr vi) o i j = mk K (dense N S vr o i j) (dense N S vi oi i j).
Proof.
  intros Hi [H1 H2]. unfold dense. rewrite gsum_c by auto. unfold mk. f_equal; apply gsum_ext; intros s Hs;
    destruct (zr s && zi s) eqn:E.
  - destruct (H2 s i Hs Hi E) as [E1 E2]. unfold cvec, mk. rewrite E1, E2. destruct ondiag; reflexivity.
  - destruct ondiag; reflexivity.
  - destruct (H2 s i Hs Hi E) as [E1 E2]. unfold cvec, mk. rewrite E1, E2. destruct ondiag, ondiag; reflexivity.
  - destruct (H1 s Hs E) as [E1 E2]. rewrite E2. destruct ondiag; reflexivity.
Qed.

Lemma addrow_loop2 N S (v : Z -> Z -> Cops K) o z zi s (d : Z -> Cops K) body : 0 <= N -> 0 <= s < S ->
  (forall i w, 0 <= i < N -> body i (sdi N S (reals w) o z, sdi N S (imags w) o zi) =
     (Cr <- set_vec (sdi N S (reals w) o z) s i (cre K (w s i + d i)%num) ;;
      Ci <- set_vec (sdi N S (imags w) o zi) s i (cim K (w s i + d i)%num) ;; Ok (Cr, Ci))) ->
  for_ 0 N body (sdi N S (reals v) o z, sdi N S (imags v) o zi) =
  Ok (sdi N S (reals (addrow v s d)) o z, sdi N S (imags (addrow v s d)) o zi).
Proof.
  intros HN Hs H.
  set (w i := (fun t j => if (t =? s) && (j <? i) then (v t j + d j)%num else v t j) : Z -> Z -> Cops K).
  rewrite (for_closed _ (fun i => (sdi N S (reals (w i)) o z, sdi N S (imags (w i)) o zi)) _ _ _
    (sdi N S (reals (addrow v s d)) o z, sdi N S (imags (addrow v s d)) o zi)); auto; try lia.
  - f_equal; apply sdi_ext; auto; intros t j _ Hj; unfold reals, imags, w; destruct (Z.ltb_spec j 0); try lia; rewrite andb_false_r; auto.
  - f_equal; apply sdi_ext; auto; intros t j _ Hj; unfold reals, imags, w, addrow; destruct (Z.ltb_spec j N); try lia; rewrite andb_true_r; auto.
  - intros i Hi. rewrite H by auto. rewrite !set_vec_sdi by auto. cbn [bind].
    assert (Ew : w i s i = v s i) by (unfold w; rewrite Z.eqb_refl; destruct (Z.ltb_spec i i); [lia|auto]).
    assert (E : forall t j, w (i + 1) t j = if (t =? s) && (j =? i) then (w i s i + d i)%num else w i t j).
    { intros t j. rewrite Ew. unfold w. destruct (Z.eqb_spec t s); cbn [andb]; auto.
      destruct (Z.eqb_spec j i), (Z.ltb_spec j i), (Z.ltb_spec j (i + 1)); try lia; subst; auto. }
    do 2 f_equal; apply sdi_ext; auto; intros t j _ Hj; unfold up2, reals, imags; rewrite E;
      destruct ((t =? s) && (j =? i)); auto.
Qed.

Theorem matmul2_ok N S1 S2 vr1 vi1 o1 oi1 zr1 zi1 vr2 vi2 o2 oi2 zr2 zi2 Cr Ci a0 b0 c0 a0' b0' c0' :
  0 < N <= 2 ^ 30 -> 0 <= S1 -> 0 <= S2 ->
  fits N S1 vr1 vi1 o1 oi1 zr1 zi1 -> fits N S2 vr2 vi2 o2 oi2 zr2 zi2 ->
  Cr = sdt N (S1 * S2) a0 b0 c0 -> Ci = sdt N (S1 * S2) a0' b0' c0' ->
  exists v o z c,
    matmul2 N S1 S2 (sdi (F := K) N S1 vr1 o1 zr1) (sdi N S1 vi1 oi1 zi1) (sdi N S2 vr2 o2 zr2) (sdi N S2 vi2 oi2 zi2) Cr Ci
    = Ok (sdi N (S1 * S2) (reals v) o z, sdi N (S1 * S2) (imags v) o z) /\
    Inv N (S1 * S2) (S1 * S2)
      (fun i j => gsum N (fun k => (dense N S1 (cvec vr1 vi1) o1 i k * dense N S2 (cvec vr2 vi2) o2 k j)%num)) v o z c.
Proof.
  intros HN HS1 HS2 F1 F2 ECr ECi. unfold matmul2.
  rewrite (sd_setzero_ok N (S1 * S2) Cr a0 b0 c0) by (auto; nia). cbn [bind].
  rewrite (sd_setzero_ok N (S1 * S2) Ci a0' b0' c0') by (auto; nia). cbn [bind].
  set (v1 := cvec vr1 vi1). set (v2 := cvec vr2 vi2).
  set (d := fun s1 s2 i => (v1 s1 i * v2 s2 ((i + o1 s1) mod N))%num : Cops K).
  set (off3 := fun s1 s2 => (o1 s1 + o2 s2) mod N).
  set (Good := fun cap f (st : sd K * sd K * Z) => exists v o z,
     st = (sdi N (S1 * S2) (reals v) o z, sdi N (S1 * S2) (imags v) o z, snd st) /\
     Inv N (S1 * S2) cap f v o z (snd st)).
  match goal with |- context [for_ 0 S1 ?b ?s] => set (body := b); set (st0 := s) end.
  assert (H : exists st, for_ 0 S1 body st0 = Ok st /\ Good (S1 * S2) (pairs N S2 d off3 S1 0) st).
  { apply (for_inv body (fun a st => Good (a * S2) (pairs N S2 d off3 a 0) st)); [lia| |].
    - unfold st0, Good. cbn [snd]. exists (fun _ _ => 0%num), (fun _ => 0), (fun _ => true). split; [reflexivity|].
      eapply Inv_f; [|apply Inv_start; auto; lia]. intros i j Hi Hj. unfold pairs. rewrite !gsum_0 by lia.
      apply c_eq; unfold cre, cim; cbn; ring.
    - intros a [[Cr' Ci'] count'] Ha (v & o & z & EC' & HI). cbn [snd] in *. injection EC' as -> ->. unfold body at 1. cbv beta iota.
      match goal with |- exists s', for_ 0 S2 ?bd ?s = Ok s' /\ _ =>
        destruct (for_inv bd (fun b st => Good (a * S2 + b) (pairs N S2 d off3 a b) st) 0 S2 s) as (st & E & HG) end.
      + auto.
      + exists v, o, z. split; [reflexivity|]. cbn [snd]. rewrite Z.add_0_r. exact HI.
      + clear v o z HI count'. intros b [[Cr' Ci'] count] Hb (v & o & z & EC' & HI). cbn [snd] in *. injection EC' as -> ->.
        pose proof (inv_count _ _ _ _ _ _ _ _ HI) as Hcnt.
        assert (Hcap : a * S2 + b < S1 * S2) by nia.
        rewrite !get_zero_sdi by auto. cbn [bind].
        assert (Ez1 : (if zr1 a then Ok (zi1 a) else Ok false) = Ok (zr1 a && zi1 a)) by (destruct (zr1 a); auto).
        rewrite Ez1. cbn [bind].
        assert (Ez2 : (if zr1 a && zi1 a then Ok true else if zr2 b then Ok (zi2 b) else Ok false)
             = Ok ((zr1 a && zi1 a) || (zr2 b && zi2 b))) by (destruct (zr1 a && zi1 a), (zr2 b); auto).
        rewrite Ez2. cbn [bind].
        destruct ((zr1 a && zi1 a) || (zr2 b && zi2 b)) eqn:Eskip.
        * (* skipped: the contribution is zero *)
          eexists. split; [reflexivity|]. exists v, o, z. cbn [snd]. split; [reflexivity|].
          apply (Inv_cap N (S1 * S2) (a * S2 + b)); [lia|].
          eapply Inv_f; [|exact HI]. intros i j Hi Hj. rewrite pairs_step by (auto; lia). unfold plus1.
          assert (Ed : d a b i = 0%num).
          { unfold d. apply orb_true_iff in Eskip. destruct Eskip as [Es|Es].
            - destruct (fit_zero _ _ _ _ _ _ _ _ F1 a i Ha Hi Es) as [E1 E2]. unfold v1, cvec. rewrite E1, E2. apply c_eq; unfold cre, cim; cbn; ring.
            - destruct (fit_zero _ _ _ _ _ _ _ _ F2 b ((i + o1 a) mod N) Hb ltac:(apply Z.mod_pos_bound; lia) Es) as [E1 E2].
              unfold v2, cvec. rewrite E1, E2. apply c_eq; unfold cre, cim; cbn; ring. }
          rewrite Ed. destruct ondiag; apply c_eq; unfold cre, cim; cbn; ring.
        * apply orb_false_iff in Eskip. destruct Eskip as [Es1 Es2].
          destruct (fit_off _ _ _ _ _ _ _ _ F1 a Ha Es1) as [Hoa Eoa].
          destruct (fit_off _ _ _ _ _ _ _ _ F2 b Hb Es2) as [Hob Eob].
          rewrite !get_off_sdi by auto. cbn [bind]. rewrite Eoa, Eob, !Z.eqb_refl. cbn [assert_ bind].
          rewrite int_in by lia. cbn [bind]. rewrite imod_ok by lia. cbn [bind].
          rewrite Z.rem_mod_nonneg by lia.
          destruct (find_off2_ok N (S1 * S2) (reals v) (imags v) o z z count ((o1 a + o2 b) mod N)) as (r & Er & Hr); [lia|].
          rewrite Er. cbn [bind].
          assert (Hrow : forall (v : Z -> Z -> Cops K) o z s3, 0 <= s3 < S1 * S2 ->
             for_ 0 N (fun i '(Cr, Ci) =>
                t <- int_ (i + o1 a) ;; k <- imod t N ;;
                ar <- get_vec (sdi N S1 vr1 o1 zr1) a i ;; ai <- get_vec (sdi N S1 vi1 oi1 zi1) a i ;;
                br <- get_vec (sdi N S2 vr2 o2 zr2) b k ;; bi <- get_vec (sdi N S2 vi2 oi2 zi2) b k ;;
                c <- get_vec Cr s3 i ;; Cr <- set_vec Cr s3 i (c + ar * br)%num ;;
                c <- get_vec Cr s3 i ;; Cr <- set_vec Cr s3 i (c - ai * bi)%num ;;
                c <- get_vec Ci s3 i ;; Ci <- set_vec Ci s3 i (c + ar * bi)%num ;;
                c <- get_vec Ci s3 i ;; Ci <- set_vec Ci s3 i (c + ai * br)%num ;;
                Ok (Cr, Ci)) (sdi N (S1 * S2) (reals v) o z, sdi N (S1 * S2) (imags v) o z)
             = Ok (sdi N (S1 * S2) (reals (addrow v s3 (d a b))) o z, sdi N (S1 * S2) (imags (addrow v s3 (d a b))) o z)).
          { intros vv oo zz s3 Hs3. apply addrow_loop2; auto; [lia|]. intros i w Hi.
            rewrite int_in by lia. cbn [bind]. rewrite imod_ok by lia. cbn [bind]. rewrite Z.rem_mod_nonneg by lia.
            assert (Hk : 0 <= (i + o1 a) mod N < N) by (apply Z.mod_pos_bound; lia).
            repeat first [rewrite get_vec_sdi by auto; cbn [bind] | rewrite set_vec_sdi by auto; cbn [bind]].
            apply f_equal. apply f_equal2; apply sdi_ext; auto; intros t j _ _; unfold up2;
              rewrite !Z.eqb_refl; cbn [andb]; destruct ((t =? s3) && (j =? i)); auto;
              unfold reals, imags, d, v1, v2, cvec, cre, cim, mk; cbn; ring. }
          destruct Hr as [[-> Hr]|[Hr Hr2]].
          -- rewrite Z.eqb_refl. rewrite !set_zero_sdi by lia. cbn [bind]. rewrite !set_off_sdi by lia. cbn [bind].
             rewrite Hrow by lia. cbn [bind]. eexists. split; [reflexivity|].
             exists (addrow v count (d a b)), (up1 o count ((o1 a + o2 b) mod N)), (up1 z count false). cbn [snd]. split; [reflexivity|].
             eapply Inv_f. { intros i j Hi Hj. symmetry. apply pairs_step; auto. lia. }
             rewrite Z.add_assoc. apply Inv_new; auto; try lia. unfold off3. apply Z.mod_pos_bound. lia.
          -- destruct (Z.eqb_spec r (-1)); [lia|]. cbn [bind]. rewrite Hrow by lia. cbn [bind].
             eexists. split; [reflexivity|]. exists (addrow v r (d a b)), o, z. cbn [snd]. split; [reflexivity|].
             eapply Inv_f. { intros i j Hi Hj. symmetry. apply pairs_step; auto. lia. }
             apply (Inv_cap N (S1 * S2) (a * S2 + b)); [lia|].
             unfold off3. rewrite <- Hr2. apply Inv_old; auto; lia.
      + exists st. split; [exact E|]. destruct HG as (v' & o' & z' & E' & HI'). exists v', o', z'. split; [auto|].
        eapply Inv_f. { intros i j Hi Hj. apply pairs_row; auto. lia. }
        replace ((a + 1) * S2) with (a * S2 + S2) by lia. exact HI'. }
  destruct H as (st & E & v & o & z & E' & HI). rewrite E. cbn [bind]. rewrite E'.
  exists v, o, z, (snd st). split; [reflexivity|]. eapply Inv_f; [|exact HI].
  intros i j Hi Hj. unfold d, off3. apply pairs_product; auto. lia.
Qed.
End Cplx.

(** ** matrix-vector products *)
Section Apply.
Context {K : ops} (HK : lawful K).
Let HR : ring_theory (@o0 K) o1 oadd omul osub oopp eq := HK.
Add Ring Kap : HR.
Lemma dense_apply N S (v : Z -> Z -> K) o z i : 0 < N -> 0 <= i < N ->
  gsum N (fun j => (dense N S v o i j * z j)%num) = gsum S (fun s => (v s i * z ((i + o s) mod N))%num).
Proof.
  intros HN Hi.
  rewrite (gsum_ext N _ (fun j => gsum S (fun s => (if ondiag N i j (o s) then v s i else 0) * z j)%num)).
  2:{ intros j Hj. unfold dense. rewrite <- gsum_scale_r by auto. reflexivity. }
  rewrite gsum_swap by auto. apply gsum_ext. intros s Hs.
  rewrite (gsum_single HK N ((i + o s) mod N)).
  - rewrite ondiag_iff by (try apply Z.mod_pos_bound; lia). rewrite Z.eqb_refl. reflexivity.
  - apply Z.mod_pos_bound. lia.
  - intros k Hk Hne. rewrite ondiag_iff by lia. destruct (Z.eqb_spec k ((i + o s) mod N)); [contradiction|ring].
Qed.
End Apply.

(** complex vectors as pairs of arrays *)
Definition cvtab {K : ops} (n : Z) (z : Z -> Cops K) : list (option K) * list (option K) :=
  (gtab n (fun i => cre K (z i)), gtab n (fun i => cim K (z i))).
Definition vtab2 {K : ops} (n : Z) (a b : Z -> option K) : list (option K) * list (option K) := (tab n a, tab n b).

Lemma cvtab_ext {K : ops} n (z w : Z -> Cops K) : (forall i, 0 <= i < n -> z i = w i) -> cvtab n z = cvtab n w.
Proof. intros H. unfold cvtab. f_equal; apply gtab_ext; intros i Hi; rewrite H by auto; reflexivity. Qed.

Lemma fill_cvtab {K : ops} n (body : Z -> list (option K) * list (option K) -> res (list (option K) * list (option K)))
  (a b : Z -> option K) (f : Z -> Cops K) :
  0 <= n -> (forall i a b, 0 <= i < n -> body i (tab n a, tab n b) =
     (r <- gwr (tab n a) i (cre K (f i)) ;; im <- gwr (tab n b) i (cim K (f i)) ;; Ok (r, im))) ->
  for_ 0 n body (tab n a, tab n b) = Ok (cvtab n f).
Proof.
  intros Hn H.
  rewrite (for_closed _ (fun i => (tab n (fun j => if j <? i then Some (cre K (f j)) else a j),
      tab n (fun j => if j <? i then Some (cim K (f j)) else b j))) _ _ _ (cvtab n f)); auto; try lia.
  - f_equal; apply tab_ext; intros j Hj; destruct (Z.ltb_spec j 0); auto; lia.
  - unfold cvtab, gtab. f_equal; apply tab_ext; intros j Hj; destruct (Z.ltb_spec j n); auto; lia.
  - intros i Hi. rewrite H, !gwr_tab by auto. cbn [bind]. apply f_equal. apply f_equal2; apply tab_ext; intros j Hj;
      destruct (Z.eqb_spec j i), (Z.ltb_spec j i), (Z.ltb_spec j (i + 1)); try lia; subst; auto.
Qed.

Section Mvp.
Context {K : ops} (HK : lawful K).
Let HR : ring_theory (@o0 K) o1 oadd omul osub oopp eq := HK.
Add Ring Kmv : HR.
Let HC := Clawful HK.
Implicit Types (z : Z -> Cops K).

Lemma csum_loop n (body : Z -> K * K -> res (K * K)) (f : Z -> Cops K) : 0 <= n ->
  (forall k a, 0 <= k < n -> body k a = Ok ((a : Cops K) + f k)%num) -> for_ 0 n body (0%num, 0%num) = Ok (gsum n f : K * K).
Proof.
  intros Hn H. rewrite (for_closed _ (fun k => (gsum k f : K * K)) _ _ _ (gsum n f : K * K)); auto.
  intros k Hk. rewrite H by auto. rewrite (gsum_S k f) by lia. reflexivity.
Qed.

(** three diagonals, flags ignored *)
Theorem mvp3_ok n z vr vi o zr zi (a b : Z -> option K) : 0 < n <= 2 ^ 30 -> offs n 3 o ->
  mvp3 n (gtab n (fun i => cre K (z i))) (gtab n (fun i => cim K (z i))) (sdi n 3 vr o zr) (sdi n 3 vi o zi) (tab n a) (tab n b)
  = Ok (cvtab n (fun i => gsum n (fun j => (dense n 3 (cvec vr vi) o i j * z j)%num))).
Proof.
  intros Hn Ho. unfold mvp3. apply fill_cvtab; [lia|]. intros i a' b' Hi.
  rewrite (csum_loop 3 _ (fun k => (cvec vr vi k i * z ((i + o k) mod n))%num)).
  - cbn [bind]. rewrite dense_apply by (auto; lia). destruct (gsum 3 _) as [x y] eqn:E. cbn [cre cim fst snd]. reflexivity.
  - lia.
  - intros k [x y] Hk. pose proof (Ho k Hk). rewrite !get_off_sdi by auto. cbn [bind]. rewrite int_in by lia. cbn [bind].
    rewrite imod_ok by lia. cbn [bind]. rewrite Z.rem_mod_nonneg by lia.
    assert (0 <= (i + o k) mod n < n) by (apply Z.mod_pos_bound; lia).
    rewrite !get_vec_sdi by auto. cbn [bind]. rewrite !grd_gtab by auto. cbn [bind]. reflexivity.
Qed.

(** any number of diagonals, skipping those marked zero *)
Theorem msg_mvp_ok n S z vr vi o oi zr zi (a b : Z -> option K) : 0 < n <= 2 ^ 30 -> 0 <= S ->
  fits n S vr vi o oi zr zi ->
  msg_mvp n S (cvtab n z) (sdi n S vr o zr) (sdi n S vi oi zi) (tab n a, tab n b)
  = Ok (cvtab n (fun i => gsum n (fun j => (dense n S (cvec vr vi) o i j * z j)%num))).
Proof.
  intros Hn HS HF. unfold msg_mvp. apply fill_cvtab; [lia|]. intros i a' b' Hi.
  rewrite (csum_loop S _ (fun k => (cvec vr vi k i * z ((i + o k) mod n))%num)).
  - cbn [bind]. rewrite dense_apply by (auto; lia). destruct (gsum S _) as [x y] eqn:E. cbn [cre cim fst snd]. reflexivity.
  - lia.
  - intros k [x y] Hk. rewrite !get_zero_sdi by auto. cbn [bind].
    replace (if negb (zr k) then Ok true else Ok (negb (zi k))) with (Ok (negb (zr k && zi k)) : res bool)
      by (destruct (zr k); reflexivity). cbn [bind].
    destruct (zr k && zi k) eqn:Ez; cbn [negb].
    + destruct (fit_zero _ _ _ _ _ _ _ _ HF k i Hk Hi Ez) as [E1 E2]. unfold cvec, mk. rewrite E1, E2.
      apply f_equal. apply c_eq; unfold cre, cim; cbn; ring.
    + destruct (fit_off _ _ _ _ _ _ _ _ HF k Hk Ez) as [E1 E2].
      rewrite !get_off_sdi by auto. cbn [bind]. rewrite E2. rewrite int_in by lia. cbn [bind].
      rewrite imod_ok by lia. cbn [bind]. rewrite Z.rem_mod_nonneg by lia.
      assert (0 <= (i + o k) mod n < n) by (apply Z.mod_pos_bound; lia).
      rewrite !get_vec_sdi by auto. cbn [bind fst snd cvtab]. rewrite !grd_gtab by auto. cbn [bind]. reflexivity.
Qed.

(** consecutive diagonals given as messages *)
Theorem msg_mvp_dense_ok n Kd z (A : Z -> Z -> Cops K) (a b : Z -> option K) : 0 < n <= 2 ^ 30 -> 0 <= Kd <= 2 ^ 30 ->
  msg_mvp_dense n Kd (cvtab n z) (tab Kd (fun k => cvtab n (A k))) (tab n a, tab n b)
  = Ok (cvtab n (fun i => gsum n (fun j => (dense n Kd A (fun k => k) i j * z j)%num))).
Proof.
  intros Hn HS. unfold msg_mvp_dense. apply fill_cvtab; [lia|]. intros i a' b' Hi.
  rewrite (csum_loop Kd _ (fun k => (A k i * z ((i + k) mod n))%num)).
  - cbn [bind]. rewrite dense_apply by (auto; lia). destruct (gsum Kd _) as [x y] eqn:E. cbn [cre cim fst snd]. reflexivity.
  - lia.
  - intros k [x y] Hk. rewrite int_in by lia. cbn [bind].
    rewrite imod_ok by lia. cbn [bind]. rewrite Z.rem_mod_nonneg by lia.
    assert (0 <= (i + k) mod n < n) by (apply Z.mod_pos_bound; lia).
    rewrite lget_tab by auto. cbn [bind fst snd cvtab]. rewrite !grd_gtab by auto. cbn [bind]. reflexivity.
Qed.
End Mvp.
