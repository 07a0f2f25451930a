(** Schedule independence of the parallel loops: C30. *)
From Coq Require Import ZArith List Bool Lia.
From Verif Require Import Base BaseFacts ZQ Mod NTT CRT RQ Conv CRTFacts RQFacts Par.
Import ListNotations.
Open Scope Z_scope.

(** [pool] cuts every iteration [i] into atomic actions on component [i] whose composition is [F i]. *)
Definition cuts {C} (n : Z) (F : Z -> C -> res C) (pool : Z -> list action) : Prop :=
  forall i c, 0 <= i < n -> seq_run (pool i) c = F i c.

(** Whatever the interleaving: no execution fails, none gets stuck before the end, and all that reach the
    end have the result [r]. *)
Definition always_ends_in {C} (n : Z) (pool : Z -> list action) (mem r : list C) : Prop :=
  forall o, psteps n pool mem o -> exists pool' mem', o = Running pool' mem' /\
    (finished n pool' -> mem' = r) /\
    forall i, 0 <= i < n -> pool' i <> [] -> exists o', pstep n pool' mem' o'.

Lemma always {C} n (F : Z -> C -> res C) pool c d : cuts n F pool -> (forall i, 0 <= i < n -> F i (c i) = Ok (d i)) ->
  always_ends_in n pool (tab n c) (tab n d).
Proof.
  intros Hp Hd o Ho. assert (H0 : forall i, 0 <= i < n -> seq_run (pool i) (c i) = Ok (d i)).
  { intros i Hi. rewrite Hp by auto. auto. }
  destruct (par_deterministic n c d pool o H0 Ho) as (p & m & -> & Hf). exists p, m. split; auto. split; auto.
  intros i Hi. eapply par_progress; eauto.
Qed.

Lemma as_tab {A} (x0 : A) (l : list A) n : Z.of_nat (length l) = n -> exists c, l = tab n c.
Proof. intros H. apply (arr_tab x0). lia. Qed.

Lemma pupd_comp n m i (f : arr -> res arr) : 0 <= i < n ->
  pupd (tab n m) i f = (y <- f (m i) ;; Ok (tab n (fun k => if k =? i then y else m k))).
Proof.
  intros Hi. unfold pupd. rewrite lget_tab by auto. cbn [bind]. destruct (f (m i)); cbn [bind]; auto. apply lset_tab. auto.
Qed.

(** ** conv(int array, R_Q, R_Q), conv.h:15-32: component [i] is [C[i]]. *)
Theorem C30_conv_s_schedule : forall LOGQ N s A C r pool, Z.of_nat (length C) = N ->
  cuts N (conv_s_coef LOGQ N s A) pool -> conv_s LOGQ N s A C = Ok r -> always_ends_in N pool C r.
Proof.
  intros LOGQ N s A C r pool HC Hp H. destruct (as_tab [] C N HC) as [c ->]. unfold conv_s in H.
  apply (loop_components _ (fun _ => True) (tab N) _ (conv_s_coef LOGQ N s A)) in H; auto.
  - destruct H as (d & -> & Hd & _). eapply always; eauto.
  - intros i m Hi _. apply pupd_comp. auto.
Qed.

(** ** crt_polynomial, conv/conv.h:65-75: component [i] is [A[i]]. *)
Definition crt_iteration (M : conv_t) (L LOGQ : Z) (A_rns : rows) (i : Z) (a : arr) : res arr :=
  Ai_rns <- for_ 0 L (fun j Ai_rns => row <- lget A_rns j ;; x <- rd row i ;; wr Ai_rns j x) (fresh L) ;;
  crt_crt (cv_crt M) L LOGQ Ai_rns a.

Theorem C30_crt_polynomial_schedule : forall M L LOGQ N A_rns A r pool, Z.of_nat (length A) = N ->
  cuts N (crt_iteration M L LOGQ A_rns) pool -> crt_polynomial M L LOGQ N A_rns A = Ok r -> always_ends_in N pool A r.
Proof.
  intros M L LOGQ N A_rns A r pool HC Hp H. destruct (as_tab [] A N HC) as [c ->]. unfold crt_polynomial in H.
  apply (loop_components _ (fun _ => True) (tab N) _ (crt_iteration M L LOGQ A_rns)) in H; auto.
  - destruct H as (d & -> & Hd & _). eapply always; eauto.
  - intros i m Hi _. unfold crt_iteration. destruct (for_ 0 L _ (fresh L)); cbn [bind]; auto. apply pupd_comp. auto.
Qed.

(** ** icrt_polynomial, conv/conv.h:53-63: component [i] is the column [A_rns[0..L-1][i]]. *)
Definition of_columns (L N : Z) (cols : list arr) : rows :=
  tab L (fun j => tab N (fun i => nth (Z.to_nat j) (nth (Z.to_nat i) cols []) None)).
Definition icrt_iteration (M : conv_t) (L LOGQ : Z) (A : poly) (i : Z) (col : arr) : res arr :=
  a <- lget A i ;; Ai_rns <- crt_icrt (cv_crt M) L LOGQ a (fresh L) ;;
  for_ 0 L (fun j col => x <- rd Ai_rns j ;; wr col j x) col.

Definition colview (L N : Z) (m : Z -> arr) : rows := tab L (fun j => tab N (fun i => nth (Z.to_nat j) (m i) None)).

(** Filling row entries j = 0..L-1 at position i against filling the column. *)
Lemma nth_upd (l : arr) n x k : nth k (upd n x l) None = if ((n =? k) && (n <? length l))%nat then x else nth k l None.
Proof.
  destruct (nth_error (upd n x l) k) eqn:E.
  - rewrite (nth_error_nth _ _ _ E). rewrite nth_error_upd in E. destruct ((n =? k) && (n <? length l))%nat; [congruence|].
    symmetry. apply nth_error_nth. auto.
  - rewrite nth_overflow by (apply nth_error_None; auto). rewrite nth_error_upd in E.
    destruct ((n =? k) && (n <? length l))%nat; [congruence|]. rewrite nth_overflow; auto. apply nth_error_None. auto.
Qed.

Lemma col_step L N i (R : arr) m : 0 <= i < N -> length (m i) = Z.to_nat L ->
  for_ 0 L (fun j A_rns => x <- rd R j ;; row <- lget A_rns j ;; row <- wr row i x ;; lset A_rns j row) (colview L N m) =
  (y <- for_ 0 L (fun j col => x <- rd R j ;; wr col j x) (m i) ;; Ok (colview L N (fun k => if k =? i then y else m k))).
Proof.
  intros Hi Hl.
  assert (G : forall (n : nat) (lo : Z) m, 0 <= lo -> lo + Z.of_nat n <= L -> length (m i) = Z.to_nat L ->
    for_ lo (lo + Z.of_nat n) (fun j A_rns => x <- rd R j ;; row <- lget A_rns j ;; row <- wr row i x ;; lset A_rns j row) (colview L N m) =
    (y <- for_ lo (lo + Z.of_nat n) (fun j col => x <- rd R j ;; wr col j x) (m i) ;;
     Ok (colview L N (fun k => if k =? i then y else m k)))).
  { clear m Hl. induction n as [|n IH]; intros lo m Hlo Hle Hl.
    - rewrite !for_nil by lia. cbn [bind]. f_equal. unfold colview. apply tab_ext. intros j Hj. apply tab_ext. intros k Hk.
      destruct (Z.eqb_spec k i) as [->|]; auto.
    - rewrite !(for_step _ lo) by lia. destruct (rd R lo) as [x| | |]; cbn [bind]; auto.
      unfold colview at 1. rewrite lget_tab by lia. cbn [bind].
      rewrite wr_tab by auto. cbn [bind]. unfold colview at 1. rewrite lset_tab by lia. cbn [bind].
      assert (Ew : wr (m i) lo x = Ok (upd (Z.to_nat lo) (Some x) (m i))).
      { unfold wr, lset. rewrite (proj2 (Z.leb_le 0 lo)), (proj2 (Z.ltb_lt lo _)) by lia. reflexivity. }
      rewrite Ew. cbn [bind].
      set (m' := fun k => if k =? i then upd (Z.to_nat lo) (Some x) (m i) else m k).
      assert (Em : tab L (fun j => if j =? lo then tab N (fun k => if k =? i then Some x else nth (Z.to_nat lo) (m k) None)
                             else tab N (fun k => nth (Z.to_nat j) (m k) None)) = colview L N m').
      { unfold colview. apply tab_ext. intros j Hj. unfold m'. destruct (Z.eqb_spec j lo) as [->|Hne]; apply tab_ext; intros k Hk.
        - destruct (Z.eqb_spec k i) as [->|]; auto. rewrite nth_upd. rewrite Nat.eqb_refl.
          rewrite (proj2 (Nat.ltb_lt (Z.to_nat lo) (length (m i)))) by lia. reflexivity.
        - destruct (Z.eqb_spec k i) as [->|]; auto. rewrite nth_upd. destruct (Nat.eqb_spec (Z.to_nat lo) (Z.to_nat j)); [lia|]. reflexivity. }
      replace (lo + Z.of_nat (S n)) with (lo + 1 + Z.of_nat n) by lia.
      etransitivity; [apply f_equal; exact Em|]. rewrite IH; try lia.
      + unfold m' at 1. rewrite Z.eqb_refl. match goal with |- bind ?e _ = _ => destruct e; cbn [bind]; auto end. f_equal. unfold colview, m'.
        apply tab_ext. intros j Hj. apply tab_ext. intros k Hk. destruct (Z.eqb_spec k i); auto.
      + unfold m'. rewrite Z.eqb_refl, upd_length. auto. }
  destruct (Z_lt_le_dec L 0).
  - rewrite !for_nil by lia. cbn [bind]. f_equal. unfold colview. apply tab_ext. intros; lia.
  - specialize (G (Z.to_nat L) 0 m). rewrite Z2Nat.id in G by lia. apply G; auto; lia.
Qed.

Lemma fill_length (R : arr) lo hi (col col' : arr) : for_ lo hi (fun j col => x <- rd R j ;; wr col j x) col = Ok col' ->
  length col' = length col.
Proof.
  intros H. destruct (Z_lt_le_dec hi lo). { rewrite for_nil in H by lia. congruence. }
  apply (for_inv_partial _ (fun _ c => length c = length col)) in H; auto.
  intros i s s' Hi Hs E. destruct (rd R i); cbn [bind] in E; try discriminate. unfold wr, lset in E.
  destruct (_ && _); [|discriminate]. injection E as <-. rewrite upd_length. auto.
Qed.

Theorem C30_icrt_polynomial_schedule : forall M L LOGQ N A cols r pool,
  Z.of_nat (length cols) = N -> Forall (fun col => length col = Z.to_nat L) cols ->
  cuts N (icrt_iteration M L LOGQ A) pool -> icrt_polynomial M L LOGQ N A (of_columns L N cols) = Ok r ->
  exists cols', of_columns L N cols' = r /\ always_ends_in N pool cols cols'.
Proof.
  intros M L LOGQ N A cols r pool HC HL Hp H. destruct (as_tab [] cols N HC) as [c ->].
  assert (Ec : of_columns L N (tab N c) = colview L N c).
  { unfold of_columns, colview. apply tab_ext. intros j Hj. apply tab_ext. intros i Hi. f_equal.
    apply nth_error_nth. apply nth_error_tab. auto. }
  rewrite Ec in H. unfold icrt_polynomial in H.
  apply (loop_components _ (fun col => length col = Z.to_nat L) (colview L N) _ (icrt_iteration M L LOGQ A)) in H.
  - destruct H as (d & -> & Hd & _). exists (tab N d). split.
    + unfold of_columns, colview. apply tab_ext. intros j Hj. apply tab_ext. intros i Hi. f_equal.
      apply nth_error_nth. apply nth_error_tab. auto.
    + eapply always; eauto.
  - intros i Hi. rewrite Forall_forall in HL. apply HL. apply (nth_error_In _ (Z.to_nat i)). apply nth_error_tab. auto.
  - intros i x y Hi Hx E. unfold icrt_iteration in E. destruct (lget A i) as [a| | |]; cbn [bind] in E; try discriminate.
    destruct (crt_icrt _ _ _ _ _); cbn [bind] in E; try discriminate. apply fill_length in E. congruence.
  - intros i m Hi Hm. unfold icrt_iteration. destruct (lget A i) as [a| | |]; cbn [bind]; auto.
    destruct (crt_icrt _ _ _ _ _) as [R| | |]; cbn [bind]; auto. apply col_step; auto.
Qed.

(** ** The loop over the primes, conv/conv.h:41-48: component [i] is the triple of rows [i]. *)
Definition of_triples (X : list (arr * arr * arr)) : rows * rows * rows :=
  (map (fun t => fst (fst t)) X, map (fun t => snd (fst t)) X, map snd X).
Definition row_iteration (M : conv_t) (N : Z) (i : Z) (t : arr * arr * arr) : res (arr * arr * arr) :=
  T <- lget (cv_ntt M) i ;; let '(a, b, c) := t in conv_row T N a b c.

Lemma map_tab {A B} (f : A -> B) n g : map f (tab n g) = tab n (fun i => f (g i)).
Proof. unfold tab. rewrite map_map. reflexivity. Qed.

Theorem C30_conv_rows_schedule : forall M L N X r pool, Z.of_nat (length X) = L ->
  cuts L (row_iteration M N) pool -> conv_rows M L N (of_triples X) = Ok r ->
  exists X', of_triples X' = r /\ always_ends_in L pool X X'.
Proof.
  intros M L N X r pool HC Hp H. destruct (as_tab ([], [], []) X L HC) as [c ->]. unfold conv_rows in H.
  apply (loop_components _ (fun _ => True) (fun m => of_triples (tab L m)) _ (row_iteration M N)) in H; auto.
  - destruct H as (d & -> & Hd & _). exists (tab L d). split; auto. eapply always; eauto.
  - intros i m Hi _. unfold of_triples, row_iteration. rewrite !map_tab.
    destruct (lget (cv_ntt M) i) as [T| | |]; cbn [bind]; auto. rewrite !lget_tab by auto. cbn [bind].
    destruct (m i) as [[a b] cc] eqn:Em. cbn [fst snd].
    destruct (conv_row T N a b cc) as [[[a' b'] c']| | |]; cbn [bind]; auto. rewrite !lset_tab by auto. cbn [bind]. f_equal.
    rewrite !map_tab. apply f_equal2; [apply f_equal2|]; apply tab_ext; intros k Hk; destruct (k =? i); auto.
Qed.

(** ** CONV::conv with every loop executed in any interleaving *)
Definition runs {C} (n : Z) (F : Z -> C -> res C) (mem mem' : list C) : Prop :=
  exists pool pool', cuts n F pool /\ psteps n pool mem (Running pool' mem') /\ finished n pool'.

Lemma runs_end {C} n F (mem mem' r : list C) : runs n F mem mem' ->
  (forall pool, cuts n F pool -> always_ends_in n pool mem r) -> mem' = r.
Proof.
  intros (pool & pool' & Hc & Hs & Hf) H. destruct (H pool Hc _ Hs) as (p & m & E & Hr & _). injection E as <- <-. auto.
Qed.

Definition fresh_columns (L N : Z) : list arr := repeat (fresh L) (Z.to_nat N).

Theorem C30_CONV_conv_schedule : forall M L LOGQ N A B C D, 0 <= L -> 0 <= N -> Z.of_nat (length C) = N ->
  CONV_conv M L LOGQ N A B C = Ok D ->
  forall A_cols B_cols X C',
    runs N (icrt_iteration M L LOGQ A) (fresh_columns L N) A_cols ->
    runs N (icrt_iteration M L LOGQ B) (fresh_columns L N) B_cols ->
    runs L (row_iteration M N) (combine (combine (of_columns L N A_cols) (of_columns L N B_cols)) (rows_new L N)) X ->
    runs N (crt_iteration M L LOGQ (snd (of_triples X))) C C' ->
    C' = D.
Proof.
  intros M L LOGQ N A B C D HL HN HC H A_cols B_cols X C' RA RB RX RC. unfold CONV_conv in H.
  assert (Ef : rows_new L N = of_columns L N (fresh_columns L N)).
  { unfold rows_new. rewrite repeat_tab. unfold of_columns. apply tab_ext. intros j Hj. rewrite fresh_tab. apply tab_ext. intros i Hi.
    unfold fresh_columns. rewrite repeat_tab. erewrite (nth_error_nth (tab N _)) by (apply nth_error_tab; auto).
    rewrite fresh_tab. erewrite (nth_error_nth (tab L _)) by (apply nth_error_tab; auto). reflexivity. }
  assert (Hfc : Forall (fun col : arr => length col = Z.to_nat L) (fresh_columns L N)).
  { apply Forall_forall. intros x Hx. apply repeat_spec in Hx. subst. apply fresh_length. }
  assert (Hfl : Z.of_nat (length (fresh_columns L N)) = N) by (unfold fresh_columns; rewrite repeat_length; lia).
  destruct (icrt_polynomial M L LOGQ N A (rows_new L N)) as [Ar| | |] eqn:EA; cbn [bind] in H; try discriminate.
  destruct (icrt_polynomial M L LOGQ N B (rows_new L N)) as [Br| | |] eqn:EB; cbn [bind] in H; try discriminate.
  rewrite Ef in EA, EB.
  assert (GA : of_columns L N A_cols = Ar).
  { destruct RA as (pool & pool' & Hc & Hs & Hf).
    destruct (C30_icrt_polynomial_schedule M L LOGQ N A _ Ar pool Hfl Hfc Hc EA) as (cols' & <- & Ha).
    destruct (Ha _ Hs) as (p & m & E & Hr & _). injection E as <- <-. rewrite Hr; auto. }
  assert (GB : of_columns L N B_cols = Br).
  { destruct RB as (pool & pool' & Hc & Hs & Hf).
    destruct (C30_icrt_polynomial_schedule M L LOGQ N B _ Br pool Hfl Hfc Hc EB) as (cols' & <- & Ha).
    destruct (Ha _ Hs) as (p & m & E & Hr & _). injection E as <- <-. rewrite Hr; auto. }
  assert (Lr : forall cols, length (of_columns L N cols) = Z.to_nat L) by (intros; apply tab_length).
  assert (Ln : length (rows_new L N) = Z.to_nat L) by (unfold rows_new; apply repeat_length).
  destruct (conv_rows M L N (Ar, Br, rows_new L N)) as [[[Ar' Br'] Cr]| | |] eqn:EX; cbn [bind] in H; try discriminate.
  set (X0 := combine (combine (of_columns L N A_cols) (of_columns L N B_cols)) (rows_new L N)) in *.
  assert (E0 : of_triples X0 = (Ar, Br, rows_new L N)).
  { subst Ar Br. unfold of_triples, X0.
    assert (Lc : length (combine (of_columns L N A_cols) (of_columns L N B_cols)) = length (rows_new L N)).
    { rewrite combine_length, !Lr, Ln. lia. }
    assert (C1 : forall (A B : Type) (l : list A) (l' : list B), length l = length l' -> map fst (combine l l') = l).
    { intros T U l. induction l as [|x l IH]; intros [|y l'] Hl; cbn in *; try discriminate; auto. f_equal. auto. }
    assert (C2 : forall (A B : Type) (l : list A) (l' : list B), length l = length l' -> map snd (combine l l') = l').
    { intros T U l. induction l as [|x l IH]; intros [|y l'] Hl; cbn in *; try discriminate; auto. f_equal. auto. }
    assert (Z1 : forall l : list (arr * arr * arr), map (fun t => fst (fst t)) l = map fst (map fst l)) by (intros; rewrite map_map; auto).
    assert (Z2 : forall l : list (arr * arr * arr), map (fun t => snd (fst t)) l = map snd (map fst l)) by (intros; rewrite map_map; auto).
    rewrite Z1, Z2, (C1 _ _ _ _ Lc), (C2 _ _ _ _ Lc), C1, C2 by (rewrite !Lr; auto). reflexivity. }
  assert (GX : of_triples X = (Ar', Br', Cr)).
  { destruct RX as (pool & pool' & Hc & Hs & Hf). rewrite <- E0 in EX.
    destruct (C30_conv_rows_schedule M L N X0 (Ar', Br', Cr) pool) as (X' & EX' & Ha).
    { unfold X0. rewrite !combine_length, !Lr, Ln. lia. }
    { exact Hc. }
    { exact EX. }
    destruct (Ha _ Hs) as (p & m & E & Hr & _). injection E as <- <-. rewrite Hr by auto. exact EX'. }
  rewrite GX in RC. cbn [snd] in RC. eapply runs_end; [exact RC|]. intros pool Hc.
  eapply C30_crt_polynomial_schedule; eauto.
Qed.

(** A case: two coefficients, ternary key 1 - X; iteration 1 runs between the two actions of iteration 0. *)
Definition ex_s : arr := [Some 1; Some (-1)].
Definition ex_P : poly := [[Some 5]; [Some 7]].
Definition ex_pool : Z -> list action := fun i =>
  [zq_setzero 10; fun c => for_ 0 2 (fun k c =>
    sk <- rd ex_s k ;;
    if negb (sk =? 0) then
      let sign := sk =? 1 in
      '(temp, sign) <- (if k <=? i then t <- lget ex_P (i - k) ;; Ok (t, sign)
                        else t <- lget ex_P (2 + i - k) ;; Ok (t, negb sign)) ;;
      if (sign : bool) then zq_add 10 c temp else zq_sub 10 c temp
    else Ok c) c].
Example C30_case_cuts : cuts 2 (conv_s_coef 10 2 ex_s ex_P) ex_pool.
Proof.
  intros i c Hi. unfold ex_pool, conv_s_coef. cbn [seq_run]. destruct (zq_setzero 10 c); cbn [bind]; auto.
  destruct (for_ 0 2 _ _); reflexivity.
Qed.
Example C30_case_run : exists pool', psteps 2 ex_pool [[None]; [None]] (Running pool' [[Some 12]; [Some 2]]) /\ finished 2 pool'.
Proof.
  eexists. split.
  - eapply pss_step. { eapply (ps_ok _ _ _ 0); [lia|reflexivity..]. }
    eapply pss_step. { eapply (ps_ok _ _ _ 1); [lia|reflexivity..]. }
    eapply pss_step. { eapply (ps_ok _ _ _ 1); [lia|reflexivity|reflexivity|vm_compute; reflexivity|reflexivity]. }
    eapply pss_step. { eapply (ps_ok _ _ _ 0); [lia|reflexivity|reflexivity|vm_compute; reflexivity|reflexivity]. }
    apply pss_refl.
  - intros i Hi. assert (Hc : i = 0 \/ i = 1) by lia. destruct Hc as [-> | ->]; reflexivity.
Qed.
