(** C65-C68: RemoveClutter, dense matrices, messages. *)
From Coq Require Import ZArith List Bool Lia Ring.
From Verif Require Import Base BaseFacts GSum Matrix MatrixFacts MatMulFacts SpecMat Properties_Mat.
Import ListNotations.
Open Scope Z_scope.

(** rows of a dense matrix *)
Definition rows {F} (N : Z) (f : Z -> Z -> F) : list (list (option F)) := map (fun i => array N (f i)) (range N).
Definition square {F} (N : Z) (A : list (list (option F))) : Prop := length A = Z.to_nat N /\ Forall (cells N) A.

Definition otab {F} N (a : Z -> Z -> option F) : list (list (option F)) := tab N (fun i => tab N (a i)).
Lemma otab_ext {F} N (a b : Z -> Z -> option F) : (forall i j, 0 <= i < N -> 0 <= j < N -> a i j = b i j) -> otab N a = otab N b.
Proof. intros H. unfold otab. apply tab_ext. intros i Hi. apply tab_ext. intros j Hj. auto. Qed.
Lemma rows_otab {F} N (f : Z -> Z -> F) : rows N f = otab N (fun i j => Some (f i j)).
Proof. unfold rows. rewrite map_range. apply tab_ext. intros i Hi. apply array_gtab. Qed.
Lemma square_otab {F} N (A : list (list (option F))) : square N A -> exists a, A = otab N a.
Proof.
  intros [H1 H2]. destruct (arr_tab [] A N H1) as [g ->]. exists (fun s i => nth (Z.to_nat i) (g s) None).
  apply tab_ext. intros s Hs.
  assert (Hl : cells N (g s)).
  { rewrite Forall_forall in H2. apply H2. apply nth_error_In with (n := Z.to_nat s). apply nth_error_tab. auto. }
  rewrite (list_tab None (g s)) at 1. unfold cells in Hl. rewrite Hl. unfold tab. rewrite Nat2Z.id. reflexivity.
Qed.

Section P.
Context {K : ops}.

Lemma mrd_otab N (a : Z -> Z -> option K) i j x : 0 <= i < N -> 0 <= j < N -> a i j = Some x -> mrd (otab N a) i j = Ok x.
Proof. intros Hi Hj E. unfold mrd, otab. rewrite lget_tab by auto. cbn [bind]. unfold grd. rewrite lget_tab by auto. cbn [bind]. rewrite E. reflexivity. Qed.
Lemma mwr_otab N (a : Z -> Z -> option K) i j x : 0 <= i < N -> 0 <= j < N ->
  mwr (otab N a) i j x = Ok (otab N (fun i' j' => if (i' =? i) && (j' =? j) then Some x else a i' j')).
Proof.
  intros Hi Hj. unfold mwr, otab. rewrite lget_tab by auto. cbn [bind]. rewrite gwr_tab by auto. cbn [bind].
  rewrite lset_tab by auto. f_equal. apply tab_ext. intros i' Hi'. destruct (Z.eqb_spec i' i) as [->|]; cbn [andb]; reflexivity.
Qed.

(** filling all entries of a matrix *)
Lemma mfill N (body : Z -> Z -> list (list (option K)) -> res (list (list (option K)))) (f : Z -> Z -> K) a : 0 <= N ->
  (forall i j b, 0 <= i < N -> 0 <= j < N ->
     body i j (otab N b) = Ok (otab N (fun i' j' => if (i' =? i) && (j' =? j) then Some (f i j) else b i' j'))) ->
  for_ 0 N (fun i V => for_ 0 N (body i) V) (otab N a) = Ok (otab N (fun i j => Some (f i j))).
Proof.
  intros HN H.
  rewrite (for_closed _ (fun i => otab N (fun i' j' => if i' <? i then Some (f i' j') else a i' j')) _ _ _ (otab N (fun i j => Some (f i j)))); auto.
  - apply otab_ext. intros i j Hi Hj. destruct (Z.ltb_spec i 0); auto; lia.
  - apply otab_ext. intros i j Hi Hj. destruct (Z.ltb_spec i N); auto; lia.
  - intros i Hi.
    rewrite (for_closed _ (fun j => otab N (fun i' j' => if (i' <? i) || ((i' =? i) && (j' <? j)) then Some (f i' j') else a i' j')) _ _ _
      (otab N (fun i' j' => if (i' <? i + 1) then Some (f i' j') else a i' j'))); auto; try lia.
    + apply otab_ext. intros i' j' Hi' Hj'. destruct (Z.ltb_spec i' i), (Z.eqb_spec i' i), (Z.ltb_spec j' 0); cbn; auto; lia.
    + apply otab_ext. intros i' j' Hi' Hj'. destruct (Z.ltb_spec i' i), (Z.eqb_spec i' i), (Z.ltb_spec j' N), (Z.ltb_spec i' (i + 1)); cbn; auto; lia.
    + intros j Hj. rewrite H by auto. f_equal. apply otab_ext. intros i' j' Hi' Hj'.
      destruct (Z.ltb_spec i' i), (Z.eqb_spec i' i), (Z.ltb_spec j' j), (Z.ltb_spec j' (j + 1)), (Z.eqb_spec j' j); cbn; subst; auto; lia.
Qed.

Theorem C67_mat_to_vecs N (A : Z -> Z -> K) V : 0 < N <= 2 ^ 30 -> square N V ->
  mat_to_vecs N (rows N A) V = Ok (rows N (fun k j => A j ((k + j) mod N))) /\
  forall (HK : lawful K) i j, 0 <= i < N -> 0 <= j < N -> matrix_of N N (fun k j => A j ((k + j) mod N)) (fun k => k) i j = A i j.
Proof.
  intros HN HV. split.
  - destruct (square_otab N V HV) as [a ->]. rewrite !rows_otab. unfold mat_to_vecs.
    apply (mfill N (fun i j V => k <- int_ (i + j) ;; k <- imod k N ;; x <- mrd (otab N (fun i j => Some (A i j))) j k ;; mwr V i j x)
      (fun k j => A j ((k + j) mod N))); [lia|].
    intros i j b Hi Hj. rewrite int_in by lia. cbn [bind]. rewrite imod_ok by lia. cbn [bind].
    erewrite mrd_otab; [|auto|rewrite Z.rem_mod_nonneg by lia; apply Z.mod_pos_bound; lia|reflexivity]. cbn [bind]. rewrite Z.rem_mod_nonneg by lia. apply mwr_otab; auto.
  - intros HK i j Hi Hj. unfold matrix_of.
    assert (Hb : 0 <= (j - i) mod N < N) by (apply Z.mod_pos_bound; lia).
    rewrite (gsum_single HK N ((j - i) mod N)); auto.
    + rewrite Zminus_mod_idemp_r, Z.sub_diag, Z.mod_0_l by lia. rewrite Z.eqb_refl. rewrite Zplus_mod_idemp_l.
      replace (j - i + i) with j by lia. rewrite Z.mod_small by lia. reflexivity.
    + intros s Hs Hne. destruct (Z.eqb_spec ((j - i - s) mod N) 0) as [E|]; auto. exfalso. apply Hne.
      apply Z.mod_divide in E; [|lia]. destruct E as [c Hc]. replace (j - i) with (s + c * N) by lia.
      rewrite Z.mod_add by lia. symmetry. apply Z.mod_small. lia.
Qed.

(** the dense product *)
Theorem C66_matrix_product N (HK : lawful K) (A B : Z -> Z -> Cops K) Cr Ci : 0 <= N -> square N Cr -> square N Ci ->
  matrix_product N (rows N (fun i j => cre K (A i j))) (rows N (fun i j => cim K (A i j)))
                   (rows N (fun i j => cre K (B i j))) (rows N (fun i j => cim K (B i j))) Cr Ci
  = Ok (rows N (fun i j => cre K (product N A B i j)), rows N (fun i j => cim K (product N A B i j))).
Proof.
  intros HN Hr Hi. destruct (square_otab N Cr Hr) as [a ->]. destruct (square_otab N Ci Hi) as [b ->]. rewrite !rows_otab.
  unfold matrix_product.
  pose (P := fun i j => product N A B i j).
  rewrite (for_closed _ (fun i => (otab N (fun i' j' => if i' <? i then Some (cre K (P i' j')) else a i' j'),
      otab N (fun i' j' => if i' <? i then Some (cim K (P i' j')) else b i' j'))) _ _ _
      (otab N (fun i j => Some (cre K (P i j))), otab N (fun i j => Some (cim K (P i j))))); auto.
  - f_equal; apply otab_ext; intros i j Hi' Hj; destruct (Z.ltb_spec i 0); auto; lia.
  - f_equal; apply otab_ext; intros i j Hi' Hj; destruct (Z.ltb_spec i N); auto; lia.
  - intros i Hii.
    rewrite (for_closed _ (fun j => (otab N (fun i' j' => if (i' <? i) || ((i' =? i) && (j' <? j)) then Some (cre K (P i' j')) else a i' j'),
        otab N (fun i' j' => if (i' <? i) || ((i' =? i) && (j' <? j)) then Some (cim K (P i' j')) else b i' j'))) _ _ _
      (otab N (fun i' j' => if i' <? i + 1 then Some (cre K (P i' j')) else a i' j'),
       otab N (fun i' j' => if i' <? i + 1 then Some (cim K (P i' j')) else b i' j'))); auto; try lia.
    + f_equal; apply otab_ext; intros i' j' Hi' Hj'; destruct (Z.ltb_spec i' i), (Z.eqb_spec i' i), (Z.ltb_spec j' 0); cbn; auto; lia.
    + f_equal; apply otab_ext; intros i' j' Hi' Hj'; destruct (Z.ltb_spec i' i), (Z.eqb_spec i' i), (Z.ltb_spec j' N), (Z.ltb_spec i' (i + 1)); cbn; auto; lia.
    + intros j Hj. rewrite !mwr_otab by auto. cbn [bind].
      pose (T := fun k => gsum k (fun k => (A i k * B k j)%num) : Cops K).
      rewrite (for_closed _ (fun k => 
        (otab N (fun i' j' => if (i' =? i) && (j' =? j) then Some (cre K (T k)) else
           if (i' <? i) || ((i' =? i) && (j' <? j)) then Some (cre K (P i' j')) else a i' j'),
         otab N (fun i' j' => if (i' =? i) && (j' =? j) then Some (cim K (T k)) else
           if (i' <? i) || ((i' =? i) && (j' <? j)) then Some (cim K (P i' j')) else b i' j'))) _ _ _
        (otab N (fun i' j' => if (i' <? i) || ((i' =? i) && (j' <? j + 1)) then Some (cre K (P i' j')) else a i' j'),
         otab N (fun i' j' => if (i' <? i) || ((i' =? i) && (j' <? j + 1)) then Some (cim K (P i' j')) else b i' j'))); auto; try lia.
      * f_equal; apply otab_ext; intros i' j' Hi' Hj';
          destruct (Z.ltb_spec i' i), (Z.eqb_spec i' i), (Z.ltb_spec j' j), (Z.ltb_spec j' (j + 1)), (Z.eqb_spec j' j); cbn [andb orb]; subst; auto; lia.
      * intros k Hk.
        erewrite mrd_otab; [|auto|auto|rewrite !Z.eqb_refl; reflexivity]. cbn [bind].
        do 4 (erewrite mrd_otab; [|auto|auto|reflexivity]; cbn [bind]).
        rewrite mwr_otab by auto. cbn [bind].
        erewrite mrd_otab; [|auto|auto|rewrite !Z.eqb_refl; reflexivity]. cbn [bind].
        rewrite mwr_otab by auto. cbn [bind]. unfold T. rewrite gsum_S by lia.
        apply f_equal. apply f_equal2; apply otab_ext; intros i' j' Hi' Hj'; destruct ((i' =? i) && (j' =? j)); reflexivity.
Qed.

(** ** C65 *)
Theorem C65_remove_clutter N S1 S2 (HK : lawful K) (v : Z -> Z -> K) o z B : 0 < N -> 0 <= S2 < S1 -> shape N S2 B ->
  (forall s, S2 <= s < S1 -> z s = true) ->
  sd_remove_clutter N S1 S2 (diagonals N S1 v o z) B = Ok (diagonals N S2 v o (fun _ => false)) /\
  ((forall s i, S2 <= s < S1 -> 0 <= i < N -> v s i = 0%num) ->
   forall i j, 0 <= i < N -> matrix_of N S2 v o i j = matrix_of N S1 v o i j).
Proof.
  intros HN HS HB Hz. split.
  - destruct (shape_sdt N S2 B HB) as (a & b & c & E). rewrite !diagonals_sdi. unfold sd_remove_clutter, assert_.
    destruct (Z.ltb_spec S2 S1); [|lia]. cbn [bind]. rewrite (sd_setzero_ok N S2 B a b c) by (auto; lia). cbn [bind].
    rewrite (for_closed _ (fun k => sdi N S2 (fun s i => if s <? k then v s i else 0%num) (fun s => if s <? k then o s else 0)
        (fun s => negb (s <? k))) _ _ _ (sdi N S2 v o (fun _ => false))); try lia.
    + cbn [bind]. rewrite (for_closed _ (fun _ => tt) _ _ _ tt); auto; try lia. intros s Hs.
      rewrite get_zero_sdi by lia. cbn [bind]. rewrite Hz by lia. reflexivity.
    + apply sdi_ext; intros; (destruct (Z.ltb_spec s 0); [lia|]); reflexivity.
    + apply sdi_ext; intros; (destruct (Z.ltb_spec s S2); [|lia]); reflexivity.
    + intros s Hs. rewrite get_off_sdi by lia. cbn [bind]. rewrite set_off_sdi by lia. cbn [bind]. rewrite set_zero_sdi by lia. cbn [bind].
      rewrite (for_closed _ (fun k => sdi N S2 (fun s' i => if (s' <? s) || ((s' =? s) && (i <? k)) then v s' i else 0%num)
         (fun s' => if s' <? s + 1 then o s' else 0) (fun s' => negb (s' <? s + 1))) _ _ _
         (sdi N S2 (fun s' i => if s' <? s + 1 then v s' i else 0%num) (fun s' => if s' <? s + 1 then o s' else 0) (fun s' => negb (s' <? s + 1)))); auto; try lia.
      * unfold up1. apply sdi_ext; intros; 
          try destruct (Z.ltb_spec i 0); try lia;
          destruct (Z.ltb_spec s0 s), (Z.eqb_spec s0 s), (Z.ltb_spec s0 (s + 1)); subst; cbn; auto; lia.
      * apply sdi_ext; intros; auto.
        destruct (Z.ltb_spec i N); try lia; destruct (Z.ltb_spec s0 s), (Z.eqb_spec s0 s), (Z.ltb_spec s0 (s + 1)); subst; cbn; auto; lia.
      * intros i Hi. rewrite get_vec_sdi by lia. cbn [bind]. rewrite set_vec_sdi by lia. f_equal. unfold up2. apply sdi_ext; intros; auto.
        destruct (Z.ltb_spec s0 s), (Z.eqb_spec s0 s), (Z.ltb_spec i0 i), (Z.ltb_spec i0 (i + 1)), (Z.eqb_spec i0 i); subst; cbn; auto; lia.
  - intros Hv i j Hi. unfold matrix_of. replace S1 with (S2 + (S1 - S2)) by lia. rewrite (gsum_split HK S2 (S1 - S2)) by lia.
    rewrite (gsum_zero HK (S1 - S2)).
    + symmetry. rewrite <- (ARadd_comm (Rth_ARth (Eqsth K) (Eq_ext _ _ _) HK)). apply (Radd_0_l HK).
    + intros s Hs. rewrite Hv by lia. destruct (_ =? 0); reflexivity.
Qed.

(** a flag that is not set in the part that is dropped fails the assertion *)
Theorem C65_remove_clutter_assert N S1 S2 (v : Z -> Z -> K) o z B t : 0 < N -> 0 <= S2 < S1 -> shape N S2 B ->
  S2 <= t < S1 -> z t = false -> sd_remove_clutter N S1 S2 (diagonals N S1 v o z) B = Abort.
Proof.
  intros HN HS HB Ht Hz. rewrite diagonals_sdi.
  destruct (shape_sdt N S2 B HB) as (a & b & c & E). unfold sd_remove_clutter, assert_.
  destruct (Z.ltb_spec S2 S1); [|lia]. cbn [bind]. rewrite (sd_setzero_ok N S2 B a b c) by (auto; lia). cbn [bind].
  match goal with |- context [for_ 0 S2 ?f ?s] => assert (Hf : exists B', for_ 0 S2 f s = Ok B') end.
  { edestruct (for_inv (fun s B => o0 <- get_off (sdi N S1 v o z) s ;; B <- set_off B s o0 ;; B <- set_zero B s false ;;
        for_ 0 N (fun i B => x <- get_vec (sdi N S1 v o z) s i ;; set_vec B s i x) B)
      (fun _ X => exists v o z, X = sdi N S2 v o z)) as (B' & HB' & _); [| | |exists B'; exact HB'].
    - lia.
    - eauto.
    - intros s X Hs (v' & o' & z' & ->). rewrite get_off_sdi by lia. cbn [bind]. rewrite set_off_sdi by lia. cbn [bind].
      rewrite set_zero_sdi by lia. cbn [bind].
      apply (for_inv (fun i B => x <- get_vec (sdi N S1 v o z) s i ;; set_vec B s i x) (fun _ X => exists v o z, X = sdi N S2 v o z)).
      + lia.
      + eauto.
      + intros i X Hi (v'' & o'' & z'' & ->). rewrite get_vec_sdi by lia. cbn [bind]. rewrite set_vec_sdi by lia. eauto 6. }
  destruct Hf as [B' ->]. cbn [bind].
  assert (Hfl : forall d, 0 <= d <= t - S2 -> for_ (t - d) S1 (fun s (_ : unit) => z0 <- get_zero (sdi N S1 v o z) s;; (if (z0 : bool) then Ok tt else Abort)) tt = Abort).
  { intros d Hd. pattern d. apply (natlike_ind (fun d => d <= t - S2 -> for_ (t - d) S1 (fun s (_ : unit) => z0 <- get_zero (sdi N S1 v o z) s;; (if (z0 : bool) then Ok tt else Abort)) tt = Abort)); try lia.
    - intros _. rewrite for_step by lia. rewrite Z.sub_0_r, get_zero_sdi by lia. cbn [bind]. rewrite Hz. reflexivity.
    - intros x Hx IH Hl. rewrite for_step by lia. rewrite get_zero_sdi by lia. cbn [bind]. destruct (z (t - Z.succ x)); auto. cbn [bind].
      replace (t - Z.succ x + 1) with (t - x) by lia. apply IH. lia. }
  specialize (Hfl (t - S2) ltac:(lia)). replace (t - (t - S2)) with S2 in Hfl by lia. rewrite Hfl. reflexivity.
Qed.

(** ** C68 *)
Lemma msg_loop n (body : Z -> list (option K) * list (option K) -> res (list (option K) * list (option K))) (f : Z -> Cops K) p :
  0 <= n -> carray_of n p ->
  (forall i a b, 0 <= i < n -> body i (tab n a, tab n b)
     = Ok (tab n (fun j => if j =? i then Some (cre K (f i)) else a j), tab n (fun j => if j =? i then Some (cim K (f i)) else b j))) ->
  for_ 0 n body p = Ok (carray n f).
Proof.
  intros Hn [Ha Hb] H. destruct p as [pa pb]; cbn [fst snd] in *.
  destruct (cells_tab n pa Ha) as [ga ->]. destruct (cells_tab n pb Hb) as [gb ->]. rewrite carray_cvtab.
  rewrite (for_closed _ (fun i => (tab n (fun j => if j <? i then Some (cre K (f j)) else ga j),
      tab n (fun j => if j <? i then Some (cim K (f j)) else gb j))) _ _ _ (cvtab n f)); auto.
  - f_equal; apply tab_ext; intros j Hj; destruct (Z.ltb_spec j 0); auto; lia.
  - unfold cvtab, gtab. f_equal; apply tab_ext; intros j Hj; destruct (Z.ltb_spec j n); auto; lia.
  - intros i Hi. rewrite H by auto. apply f_equal. apply f_equal2; apply tab_ext; intros j Hj;
      destruct (Z.eqb_spec j i), (Z.ltb_spec j i), (Z.ltb_spec j (i + 1)); try lia; subst; auto.
Qed.

Ltac slot := intros i a b Hi; unfold cvtab; cbn [fst snd]; rewrite ?grd_gtab by auto; cbn [bind]; rewrite ?gwr_tab by auto; cbn [bind]; reflexivity.

Theorem C68_new n : 0 <= n -> msg_new n = Ok (carray n (fun _ => (0%num : Cops K))).
Proof.
  intros Hn. unfold msg_new. apply msg_loop; auto; [split; unfold cells, gfresh; cbn [fst snd]; apply repeat_length|].
  intros i a b Hi. rewrite !gwr_tab by auto. reflexivity.
Qed.
Theorem C68_add n (x y : Z -> Cops K) p : 0 <= n -> carray_of n p ->
  msg_add n (carray n x) (carray n y) p = Ok (carray n (fun i => (x i + y i)%num)).
Proof. intros Hn Hp. unfold msg_add. rewrite (carray_cvtab n x), (carray_cvtab n y). apply msg_loop; auto. slot. Qed.
Theorem C68_sub n (x y : Z -> Cops K) p : 0 <= n -> carray_of n p ->
  msg_sub n (carray n x) (carray n y) p = Ok (carray n (fun i => (x i - y i)%num)).
Proof. intros Hn Hp. unfold msg_sub. rewrite (carray_cvtab n x), (carray_cvtab n y). apply msg_loop; auto. slot. Qed.
Theorem C68_mul n (x y : Z -> Cops K) p : 0 <= n -> carray_of n p ->
  msg_mul n (carray n x) (carray n y) p = Ok (carray n (fun i => (x i * y i)%num)).
Proof. intros Hn Hp. unfold msg_mul. rewrite (carray_cvtab n x), (carray_cvtab n y). apply msg_loop; auto. slot. Qed.

End P.

Section Q.
Context {K : ops} (HK : lawful K).
Let HR : ring_theory (@o0 K) o1 oadd omul osub oopp eq := HK.
Add Ring Kmsg : HR.
(** sum of |z_i|^2 *)
Theorem C68_square_sum n (x : Z -> Cops K) : 0 <= n ->
  square_sum n (carray n x) = Ok (gsum n (fun i => cre K (x i * cconj K (x i))%num)) /\
  gsum n (fun i => cim K (x i * cconj K (x i))%num) = 0%num.
Proof.
  intros Hn. rewrite carray_cvtab. unfold square_sum. split.
  - rewrite (for_closed _ (fun k => gsum k (fun i => cre K (x i * cconj K (x i))%num)) _ _ _ (gsum n (fun i => cre K (x i * cconj K (x i))%num))); auto.
    intros i Hi. unfold cvtab; cbn [fst snd]. rewrite !grd_gtab by auto. cbn [bind]. f_equal. rewrite gsum_S by lia. f_equal.
    unfold cre, cim. cbn. ring.
  - apply gsum_zero; auto. intros i Hi. unfold cim. cbn. ring.
Qed.
End Q.

(** mul does not work in place *)
Theorem C70_mul_in_place_refuted : exists (x y : Z -> Cops Zops) r r',
  msg_mul 2 (carray 2 x) (carray 2 y) (gfresh Z 2, gfresh Z 2) = Ok r /\ msg_mul_self 2 (carray 2 x) (carray 2 y) = Ok r' /\ r <> r'.
Proof.
  exists (fun i => mk Zops (i + 1) 2), (fun i => mk Zops 3 (i + 4)). do 2 eexists.
  split; [vm_compute; reflexivity|]. split; [vm_compute; reflexivity|]. discriminate.
Qed.

(** ** cases *)
Definition em : Z -> Z -> Z := fun s i => 10 * s + i + 1.
Definition eo : Z -> Z := fun s => 3 - s.
Lemma em_off : offsets_in 4 2 eo /\ distinct_offsets 4 2 eo /\ offsets_int 2 eo.
Proof.
  unfold eo. split; [|split].
  - intros s Hs. lia.
  - intros s t Hs Ht E. assert (s = 0 \/ s = 1) as [->| ->] by lia; assert (t = 0 \/ t = 1) as [->| ->] by lia; auto; vm_compute in E; discriminate.
  - intros s Hs. lia.
Qed.
Definition eA : sd Zops := diagonals 4 2 em eo (fun _ => false).
Example C47_case : get_element 4 2 eA 1 3 = Ok 12 /\ get_element 4 2 eA 1 0 = Ok 2 /\ get_element 4 2 eA 1 1 = Ok 0 /\
  set_element 4 2 eA 1 1 7 = Abort /\ matrix_of (K := Zops) 4 2 em eo 1 3 = 12 /\
  (A <- set_element 4 2 eA 1 3 7 ;; get_element 4 2 A 1 3) = Ok 7 /\
  (A <- sd_transpose 4 2 eA ;; get_element 4 2 A 3 1) = Ok 12.
Proof. vm_compute. repeat split. Qed.
Example C48_case : (C <- matmul 4 2 2 eA eA (sd_new Z 4 4) ;; get_element 4 4 C 0 1) = Ok (1 * 14 + 11 * 3) /\
  product (K := Zops) 4 (matrix_of (K := Zops) 4 2 em eo) (matrix_of (K := Zops) 4 2 em eo) 0 1 = 47.
Proof. vm_compute. split; reflexivity. Qed.
Lemma ex_flags : flags_right (K := Zops) 4 2 em em eo eo (fun _ => false) (fun s => s =? 1).
Proof. intros s Hs. cbn [andb]. split; [|reflexivity]. apply (proj1 em_off). auto. Qed.
Example C48_complex_case : (C <- matmul2 (K := Zops) 4 2 2 eA eA eA eA (sd_new Z 4 4) (sd_new Z 4 4) ;; get_element (K := Zops) 4 4 (snd C) 0 1) = Ok 94.
Proof. vm_compute. reflexivity. Qed.
Example C50_case : msg_mvp (K := Zops) 4 2 (carray (K := Zops) 4 (fun i => mk Zops i 1)) eA eA (gfresh Z 4, gfresh Z 4)
  = Ok (carray (K := Zops) 4 (fun i => mk Zops (nth (Z.to_nat i) [13; 22; -13; 4] 0) (nth (Z.to_nat i) [37; 50; 19; 40] 0))).
Proof. vm_compute. reflexivity. Qed.
Example C65_case : sd_remove_clutter (K := Zops) 4 3 2 (diagonals 4 3 (fun s i => if s =? 2 then 0 else em s i) eo (fun s => s =? 2)) (sd_new Z 4 2)
  = Ok (diagonals 4 2 em eo (fun _ => false)).
Proof. vm_compute. reflexivity. Qed.
Example C66_case : matrix_product (K := Zops) 2 (rows 2 (fun i j => i + j)) (rows 2 (fun i j => i)) (rows 2 (fun i j => 1 + j)) (rows 2 (fun i j => 2 * i))
   (repeat (gfresh Z 2) 2) (repeat (gfresh Z 2) 2)
  = Ok (rows 2 (fun i j => if i =? 0 then 1 + j else 1 + 3 * j), rows 2 (fun i j => if i =? 0 then 2 else 6 + 2 * j)).
Proof. vm_compute. reflexivity. Qed.
Example C67_case : mat_to_vecs (K := Zops) 3 (rows 3 (fun i j => 10 * i + j)) (repeat (gfresh Z 3) 3)
  = Ok [[Some 0; Some 11; Some 22]; [Some 1; Some 12; Some 20]; [Some 2; Some 10; Some 21]].
Proof. vm_compute. reflexivity. Qed.
Example C68_case : square_sum (K := Zops) 2 (carray (K := Zops) 2 (fun i => mk Zops (i + 1) 2)) = Ok 13.
Proof. vm_compute. reflexivity. Qed.
