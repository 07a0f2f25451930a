(** Lemmas about the execution model: loops in closed form, arrays given by functions, digits. *)
From Coq Require Import ZArith List Bool Lia FunctionalExtensionality.
From Verif Require Import Base.
Import ListNotations.
Open Scope Z_scope.

(** ** Loops *)

Lemma iter_up_closed {S} (body : Z -> S -> res S) (st : Z -> S) n : forall lo,
  (forall i, lo <= i < lo + Z.of_nat n -> body i (st i) = Ok (st (i + 1))) ->
  iter_up n lo body (st lo) = Ok (st (lo + Z.of_nat n)).
Proof.
  induction n; intros lo H.
  - cbn. f_equal. f_equal. lia.
  - cbn [iter_up]. rewrite H by lia. cbn [bind]. rewrite IHn.
    + f_equal. f_equal. lia.
    + intros i Hi. apply H. lia.
Qed.

Lemma for_closed {S} (body : Z -> S -> res S) (st : Z -> S) lo hi s s' :
  lo <= hi -> s = st lo -> s' = st hi ->
  (forall i, lo <= i < hi -> body i (st i) = Ok (st (i + 1))) ->
  for_ lo hi body s = Ok s'.
Proof.
  intros Hle -> -> H. unfold for_. rewrite iter_up_closed.
  - f_equal. f_equal. lia.
  - intros i Hi. apply H. lia.
Qed.

Lemma for_nil {S} (body : Z -> S -> res S) lo hi s : hi <= lo -> for_ lo hi body s = Ok s.
Proof. intros H. unfold for_. replace (Z.to_nat (hi - lo)) with O by lia. reflexivity. Qed.

Lemma for_step {S} (body : Z -> S -> res S) lo hi s : lo < hi ->
  for_ lo hi body s = (s' <- body lo s ;; for_ (lo + 1) hi body s').
Proof.
  intros H. unfold for_.
  replace (Z.to_nat (hi - lo)) with (Datatypes.S (Z.to_nat (hi - (lo + 1)))) by lia.
  reflexivity.
Qed.

Lemma for_split {S} (body : Z -> S -> res S) lo mid hi s : lo <= mid <= hi ->
  for_ lo hi body s = (s' <- for_ lo mid body s ;; for_ mid hi body s').
Proof.
  intros H. remember (Z.to_nat (mid - lo)) as n eqn:En. revert lo s H En.
  induction n; intros lo s H En.
  - assert (mid = lo) by lia. subst mid. rewrite (for_nil body lo lo) by lia. reflexivity.
  - rewrite (for_step body lo hi), (for_step body lo mid) by lia.
    destruct (body lo s); cbn [bind]; auto. apply IHn; lia.
Qed.

Lemma for_ext {S} (b1 b2 : Z -> S -> res S) lo hi s :
  (forall i s, lo <= i < hi -> b1 i s = b2 i s) -> for_ lo hi b1 s = for_ lo hi b2 s.
Proof.
  intros H. unfold for_. remember (Z.to_nat (hi - lo)) as n eqn:En.
  revert lo s H En. induction n; intros lo s H En; cbn [iter_up]; auto.
  rewrite H by lia. destruct (b2 lo s); cbn [bind]; auto.
  apply IHn; [intros; apply H; lia | lia].
Qed.

(** Invariant rule: some final state satisfying the invariant exists. *)
Lemma for_inv {S} (body : Z -> S -> res S) (P : Z -> S -> Prop) lo hi s :
  lo <= hi -> P lo s ->
  (forall i s, lo <= i < hi -> P i s -> exists s', body i s = Ok s' /\ P (i + 1) s') ->
  exists s', for_ lo hi body s = Ok s' /\ P hi s'.
Proof.
  intros Hle H0 Hs. unfold for_. remember (Z.to_nat (hi - lo)) as n eqn:En.
  revert lo s Hle H0 Hs En. induction n; intros lo s Hle H0 Hs En.
  - exists s. cbn. split; auto. assert (lo = hi) by lia. subst; auto.
  - cbn [iter_up]. destruct (Hs lo s) as (s1 & E & H1); [lia|auto|]. rewrite E. cbn [bind].
    apply IHn; auto; try lia. intros; apply Hs; auto; lia.
Qed.

(** Partial-correctness invariant rule: if the loop ends normally the invariant holds. *)
Lemma for_inv_partial {S} (body : Z -> S -> res S) (P : Z -> S -> Prop) lo hi s s' :
  lo <= hi -> P lo s ->
  (forall i s s', lo <= i < hi -> P i s -> body i s = Ok s' -> P (i + 1) s') ->
  for_ lo hi body s = Ok s' -> P hi s'.
Proof.
  intros Hle H0 Hs. unfold for_. remember (Z.to_nat (hi - lo)) as n eqn:En.
  revert lo s Hle H0 Hs En. induction n; intros lo s Hle H0 Hs En E.
  - cbn in E. injection E as <-. assert (lo = hi) by lia. subst; auto.
  - cbn [iter_up] in E. destruct (body lo s) as [s1| | |] eqn:E1; try discriminate.
    cbn [bind] in E. eapply (IHn (lo + 1) s1); auto; try lia.
    + eapply Hs; eauto; lia.
    + intros i s2 s3 Hi. apply Hs. lia.
Qed.

Lemma iter_down_closed {S} (body : Z -> S -> res S) (st : Z -> S) n : forall hi,
  (forall i, hi - Z.of_nat n < i <= hi -> body i (st i) = Ok (st (i - 1))) ->
  iter_down n hi body (st hi) = Ok (st (hi - Z.of_nat n)).
Proof.
  induction n; intros hi H.
  - cbn. f_equal. f_equal. lia.
  - cbn [iter_down]. rewrite H by lia. cbn [bind]. rewrite IHn.
    + f_equal. f_equal. lia.
    + intros i Hi. apply H. lia.
Qed.

(** [st i] is the state before the iteration with counter [i]; the final state is [st (lo-1)]. *)
Lemma for_down_closed {S} (body : Z -> S -> res S) (st : Z -> S) hi lo s s' :
  lo - 1 <= hi -> s = st hi -> s' = st (lo - 1) ->
  (forall i, lo <= i <= hi -> body i (st i) = Ok (st (i - 1))) ->
  for_down hi lo body s = Ok s'.
Proof.
  intros Hle -> -> H. unfold for_down. rewrite iter_down_closed.
  - f_equal. f_equal. lia.
  - intros i Hi. apply H. lia.
Qed.

Lemma for_down_nil {S} (body : Z -> S -> res S) hi lo s : hi < lo -> for_down hi lo body s = Ok s.
Proof. intros H. unfold for_down. replace (Z.to_nat (hi - lo + 1)) with O by lia. reflexivity. Qed.

Lemma for_down_step {S} (body : Z -> S -> res S) hi lo s : lo <= hi ->
  for_down hi lo body s = (s' <- body hi s ;; for_down (hi - 1) lo body s').
Proof.
  intros H. unfold for_down.
  replace (Z.to_nat (hi - lo + 1)) with (Datatypes.S (Z.to_nat (hi - 1 - lo + 1))) by lia.
  reflexivity.
Qed.

(** ** Arrays given by functions *)

Definition tab {A} (n : Z) (f : Z -> A) : list A :=
  map (fun k => f (Z.of_nat k)) (seq 0 (Z.to_nat n)).

Lemma tab_length {A} n (f : Z -> A) : length (tab n f) = Z.to_nat n.
Proof. unfold tab. rewrite map_length, seq_length. reflexivity. Qed.

Lemma tab_ext {A} n (f g : Z -> A) : (forall i, 0 <= i < n -> f i = g i) -> tab n f = tab n g.
Proof.
  intros H. apply map_ext_in. intros k Hk. apply in_seq in Hk. apply H. lia.
Qed.

Lemma nth_error_map' {A B} (f : A -> B) l n :
  nth_error (map f l) n = match nth_error l n with Some x => Some (f x) | None => None end.
Proof. revert n. induction l; destruct n; cbn; auto. Qed.

Lemma nth_error_seq a n k : (k < n)%nat -> nth_error (seq a n) k = Some (a + k)%nat.
Proof.
  revert a k. induction n; intros a k H; [lia|].
  destruct k; cbn; [f_equal; lia|]. rewrite IHn by lia. f_equal. lia.
Qed.

Lemma nth_error_tab {A} n (f : Z -> A) i : 0 <= i < n ->
  nth_error (tab n f) (Z.to_nat i) = Some (f i).
Proof.
  intros H. unfold tab. rewrite nth_error_map', nth_error_seq by lia.
  do 2 f_equal. lia.
Qed.

Lemma lget_tab {A} n (f : Z -> A) i : 0 <= i < n -> lget (tab n f) i = Ok (f i).
Proof.
  intros H. unfold lget. destruct (Z.leb_spec 0 i); [|lia]. rewrite nth_error_tab by auto.
  reflexivity.
Qed.

Lemma lget_out {A} (l : list A) i : ~ (0 <= i < Z.of_nat (length l)) -> lget l i = Undef.
Proof.
  intros H. unfold lget. destruct (Z.leb_spec 0 i); auto.
  destruct (nth_error l (Z.to_nat i)) eqn:E; auto.
  assert (nth_error l (Z.to_nat i) <> None) as Hn by congruence.
  apply nth_error_Some in Hn. lia.
Qed.

Lemma nth_error_upd {A} (l : list A) n x k :
  nth_error (upd n x l) k =
  if andb (Nat.eqb n k) (Nat.ltb n (length l)) then Some x else nth_error l k.
Proof.
  revert n k. induction l as [|h t IH]; intros n k.
  - destruct n; cbn; rewrite ?andb_false_r; destruct k; auto.
  - destruct n; destruct k; cbn; auto. rewrite IH. reflexivity.
Qed.

Lemma upd_length {A} (l : list A) n x : length (upd n x l) = length l.
Proof. revert n. induction l; destruct n; cbn; auto. Qed.

Lemma list_ext {A} (l1 l2 : list A) :
  (forall k, nth_error l1 k = nth_error l2 k) -> l1 = l2.
Proof.
  revert l2. induction l1 as [|a l1 IH]; intros l2 H.
  - specialize (H O). destruct l2; auto; discriminate.
  - destruct l2 as [|b l2]; [specialize (H O); discriminate|].
    f_equal; [specialize (H O); cbn in H; congruence|].
    apply IH. intros k. apply (H (S k)).
Qed.

Lemma lset_tab {A} n (f : Z -> A) i x : 0 <= i < n ->
  lset (tab n f) i x = Ok (tab n (fun j => if j =? i then x else f j)).
Proof.
  intros H. unfold lset. rewrite tab_length.
  destruct (Z.leb_spec 0 i); [|lia]. destruct (Z.ltb_spec i (Z.of_nat (Z.to_nat n))); [|lia].
  cbn [andb]. f_equal. apply list_ext. intros k. rewrite nth_error_upd, tab_length.
  destruct (Nat.ltb_spec k (Z.to_nat n)) as [Hk|Hk].
  - replace k with (Z.to_nat (Z.of_nat k)) by lia. rewrite !nth_error_tab by lia.
    destruct (Nat.eqb_spec (Z.to_nat i) (Z.to_nat (Z.of_nat k)));
      destruct (Z.eqb_spec (Z.of_nat k) i); cbn [andb]; try lia; auto.
    destruct (Nat.ltb_spec (Z.to_nat i) (Z.to_nat n)); auto; lia.
  - assert (N1 : forall g : Z -> A, nth_error (tab n g) k = None).
    { intros g. apply nth_error_None. rewrite tab_length. lia. }
    rewrite !N1. destruct (Nat.eqb_spec (Z.to_nat i) k); auto; lia.
Qed.

Lemma lset_out {A} (l : list A) i x : ~ (0 <= i < Z.of_nat (length l)) -> lset l i x = Undef.
Proof.
  intros H. unfold lset. destruct (Z.leb_spec 0 i); destruct (Z.ltb_spec i (Z.of_nat (length l)));
    cbn; auto; lia.
Qed.

(** Every list is a table. *)
Lemma list_tab {A} (d : A) (l : list A) :
  l = tab (Z.of_nat (length l)) (fun i => nth (Z.to_nat i) l d).
Proof.
  apply list_ext. intros k. destruct (Nat.ltb_spec k (length l)) as [Hk|Hk].
  - replace k with (Z.to_nat (Z.of_nat k)) at 2 by lia. rewrite nth_error_tab by lia.
    rewrite Nat2Z.id. apply nth_error_nth'. auto.
  - rewrite (proj2 (nth_error_None l k)) by lia.
    symmetry. apply nth_error_None. rewrite tab_length. lia.
Qed.

Lemma arr_tab {A} (d : A) (l : list A) n : length l = Z.to_nat n -> exists g, l = tab n g.
Proof.
  intros H. exists (fun i => nth (Z.to_nat i) l d).
  rewrite (list_tab d l) at 1. rewrite H.
  unfold tab. rewrite Nat2Z.id. reflexivity.
Qed.

Lemma fresh_tab n : fresh n = tab n (fun _ => None).
Proof.
  unfold fresh, tab. generalize (Z.to_nat n) as m, O. induction m; intros k; cbn; f_equal; auto.
Qed.

Lemma fresh_length n : length (fresh n) = Z.to_nat n.
Proof. unfold fresh. apply repeat_length. Qed.

Lemma tab_nil {A} n (f : Z -> A) : n <= 0 -> tab n f = [].
Proof. intros H. unfold tab. replace (Z.to_nat n) with O by lia. reflexivity. Qed.

Lemma tab_inj {A} n (f g : Z -> A) : tab n f = tab n g -> forall i, 0 <= i < n -> f i = g i.
Proof.
  intros H i Hi. assert (E : lget (tab n f) i = lget (tab n g) i) by congruence.
  rewrite !lget_tab in E by auto. congruence.
Qed.

(** Arrays of initialised cells. *)
Definition wtab (n : Z) (f : Z -> Z) : arr := tab n (fun i => Some (f i)).

Lemma wtab_ext n f g : (forall i, 0 <= i < n -> f i = g i) -> wtab n f = wtab n g.
Proof. intros H. apply tab_ext. intros. f_equal. auto. Qed.

Lemma wtab_length n f : length (wtab n f) = Z.to_nat n.
Proof. apply tab_length. Qed.

Lemma wtab_inj n f g : wtab n f = wtab n g -> forall i, 0 <= i < n -> f i = g i.
Proof. intros H i Hi. pose proof (tab_inj _ _ _ H i Hi). congruence. Qed.

Lemma rd_tab n f i : 0 <= i < n ->
  rd (tab n f) i = match f i with Some x => Ok x | None => Undef end.
Proof. intros H. unfold rd. rewrite lget_tab by auto. reflexivity. Qed.

Lemma rd_wtab n f i : 0 <= i < n -> rd (wtab n f) i = Ok (f i).
Proof. intros H. unfold wtab. rewrite rd_tab by auto. reflexivity. Qed.

Lemma wr_tab n f i x : 0 <= i < n ->
  wr (tab n f) i x = Ok (tab n (fun j => if j =? i then Some x else f j)).
Proof. intros H. unfold wr. apply lset_tab. auto. Qed.

Lemma wr_wtab n f i x : 0 <= i < n ->
  wr (wtab n f) i x = Ok (wtab n (fun j => if j =? i then x else f j)).
Proof.
  intros H. unfold wtab. rewrite wr_tab by auto. f_equal. apply tab_ext. intros j Hj.
  destruct (j =? i); auto.
Qed.

(** ** Arithmetic of powers of the word size *)

Lemma W_pos : 0 < W. Proof. reflexivity. Qed.

Definition Wp (i : Z) : Z := 2 ^ (64 * i).

Lemma Wp_0 : Wp 0 = 1. Proof. reflexivity. Qed.
Lemma Wp_1 : Wp 1 = W. Proof. reflexivity. Qed.
Lemma Wp_pos i : 0 <= i -> 0 < Wp i.
Proof. intros. unfold Wp. apply Z.pow_pos_nonneg; lia. Qed.
Lemma Wp_S i : 0 <= i -> Wp (i + 1) = Wp i * W.
Proof. intros. unfold Wp, W. rewrite <- Z.pow_add_r by lia. f_equal. lia. Qed.
Lemma Wp_add i j : 0 <= i -> 0 <= j -> Wp (i + j) = Wp i * Wp j.
Proof. intros. unfold Wp. rewrite <- Z.pow_add_r by lia. f_equal. lia. Qed.

(** Digit [j] of [v] in base 2^64. *)
Definition dg (v j : Z) : Z := (v / Wp j) mod W.

Lemma dg_word v j : is_word (dg v j).
Proof. unfold is_word, dg. apply Z.mod_pos_bound. reflexivity. Qed.

Lemma dg_0 v : dg v 0 = v mod W.
Proof. unfold dg. rewrite Wp_0, Z.div_1_r. reflexivity. Qed.

Lemma mod_Wp_S v i : 0 <= i -> v mod Wp (i + 1) = v mod Wp i + Wp i * dg v i.
Proof.
  intros H. rewrite Wp_S by auto. unfold dg.
  pose proof (Wp_pos i H). pose proof W_pos. rewrite Z.rem_mul_r by lia. reflexivity.
Qed.

Lemma dg_mod v n j : 0 <= j < n -> dg (v mod Wp n) j = dg v j.
Proof.
  intros H. unfold dg.
  replace n with (j + (1 + (n - j - 1))) by lia.
  rewrite !Wp_add by lia. rewrite Wp_1.
  pose proof (Wp_pos j ltac:(lia)). pose proof (Wp_pos (n - j - 1) ltac:(lia)). pose proof W_pos.
  rewrite (Z.rem_mul_r v (Wp j)) by nia.
  rewrite (Z.mul_comm (Wp j)), Z.div_add by lia.
  rewrite (Z.div_small (v mod Wp j)) by (apply Z.mod_pos_bound; lia).
  rewrite Z.add_0_l, Z.rem_mul_r by lia.
  rewrite Z.add_mod, (Z.mul_comm W), Z.mod_mul, Z.add_0_r, !Z.mod_mod by lia. reflexivity.
Qed.

(** [n] words holding [v] modulo [2^(64 n)]. *)
Definition raw (n v : Z) : arr := wtab n (dg v).

Lemma rd_raw n v i : 0 <= i < n -> rd (raw n v) i = Ok (dg v i).
Proof. apply rd_wtab. Qed.

Lemma raw_mod n v : raw n (v mod Wp n) = raw n v.
Proof. apply wtab_ext. intros. apply dg_mod. auto. Qed.

Lemma raw_congr n u v : u mod Wp n = v mod Wp n -> raw n u = raw n v.
Proof. intros H. rewrite <- (raw_mod n u), <- (raw_mod n v), H. reflexivity. Qed.

Lemma digits_eq n u v : 0 <= n -> (forall i, 0 <= i < n -> dg u i = dg v i) ->
  u mod Wp n = v mod Wp n.
Proof.
  intros Hn. revert n Hn. apply (natlike_ind (fun n =>
    (forall i, 0 <= i < n -> dg u i = dg v i) -> u mod Wp n = v mod Wp n)).
  - intros _. rewrite Wp_0, !Z.mod_1_r. reflexivity.
  - intros n Hn IH H. unfold Z.succ. rewrite !mod_Wp_S by auto.
    rewrite IH by (intros; apply H; lia). rewrite H by lia. reflexivity.
Qed.

Lemma raw_inj n u v : 0 <= n -> raw n u = raw n v -> u mod Wp n = v mod Wp n.
Proof. intros Hn H. apply digits_eq; auto. intros. eapply wtab_inj in H; eauto. Qed.

(** Value of [n] words given by a function. *)
Definition valf (n : nat) (f : Z -> Z) : Z :=
  fold_right (fun k acc => acc + f (Z.of_nat k) * Wp (Z.of_nat k)) 0 (rev (seq 0 n)).

Lemma valf_S n f : valf (S n) f = valf n f + f (Z.of_nat n) * Wp (Z.of_nat n).
Proof.
  unfold valf. rewrite seq_S, rev_app_distr. cbn [rev app fold_right].
  rewrite Nat.add_0_l. reflexivity.
Qed.

Lemma valf_bound n f : (forall i, 0 <= i < Z.of_nat n -> is_word (f i)) ->
  0 <= valf n f < Wp (Z.of_nat n).
Proof.
  induction n; intros H.
  - cbn. lia.
  - rewrite valf_S. assert (Hn := IHn ltac:(intros; apply H; lia)).
    specialize (H (Z.of_nat n) ltac:(lia)). unfold is_word in H.
    rewrite Nat2Z.inj_succ. unfold Z.succ. rewrite Wp_S by lia.
    pose proof (Wp_pos (Z.of_nat n) ltac:(lia)). nia.
Qed.

Lemma dg_valf n f j : (forall i, 0 <= i < Z.of_nat n -> is_word (f i)) ->
  0 <= j < Z.of_nat n -> dg (valf n f) j = f j.
Proof.
  induction n; intros H Hj; [lia|].
  rewrite valf_S.
  assert (Hb := valf_bound n f ltac:(intros; apply H; lia)).
  pose proof (Wp_pos (Z.of_nat n) ltac:(lia)) as Hp.
  destruct (Z.eq_dec j (Z.of_nat n)) as [->|Hne].
  - unfold dg. rewrite Z.div_add by lia. rewrite (Z.div_small (valf n f)) by lia.
    apply Z.mod_small. apply H. lia.
  - rewrite <- (dg_mod _ (Z.of_nat n)) by lia.
    rewrite Z.mod_add by lia. rewrite (Z.mod_small (valf n f)) by lia.
    apply IHn; [intros; apply H; lia|lia].
Qed.

Lemma wtab_raw n f : (forall i, 0 <= i < n -> is_word (f i)) ->
  wtab n f = raw n (valf (Z.to_nat n) f).
Proof.
  intros H. apply wtab_ext. intros i Hi. symmetry. apply dg_valf; [intros; apply H; lia|lia].
Qed.

Lemma valf_dg n v : valf n (dg v) = v mod Wp (Z.of_nat n).
Proof.
  induction n.
  - cbn. rewrite Z.mod_1_r. reflexivity.
  - rewrite valf_S, Nat2Z.inj_succ. unfold Z.succ. rewrite mod_Wp_S by lia. lia.
Qed.

(** ** Word operations *)

Lemma wshl_ok a k : 0 <= k < 64 -> wshl a k = Ok (wrap (a * 2 ^ k)).
Proof.
  intros H. unfold wshl. destruct (Z.leb_spec 0 k); destruct (Z.ltb_spec k 64); cbn; auto; lia.
Qed.
Lemma wshr_ok a k : 0 <= k < 64 -> wshr a k = Ok (a / 2 ^ k).
Proof.
  intros H. unfold wshr. destruct (Z.leb_spec 0 k); destruct (Z.ltb_spec k 64); cbn; auto; lia.
Qed.
Lemma wrap_word x : is_word (wrap x).
Proof. unfold is_word, wrap. apply Z.mod_pos_bound. reflexivity. Qed.
Lemma wrap_small x : is_word x -> wrap x = x.
Proof. intros H. apply Z.mod_small. exact H. Qed.

(** [x << r >> r] keeps the low [64-r] bits. *)
Lemma shl_shr a r : 0 <= r <= 64 -> wrap (a * 2 ^ r) / 2 ^ r = a mod 2 ^ (64 - r).
Proof.
  intros H. unfold wrap, W. replace (2 ^ 64) with (2 ^ (64 - r) * 2 ^ r)
    by (rewrite <- Z.pow_add_r by lia; f_equal; lia).
  assert (0 < 2 ^ r) by (apply Z.pow_pos_nonneg; lia).
  assert (0 < 2 ^ (64 - r)) by (apply Z.pow_pos_nonneg; lia).
  rewrite Z.mul_mod_distr_r by lia. apply Z.div_mul. lia.
Qed.

Lemma lxor_ones x : is_word x -> Z.lxor x (W - 1) = W - 1 - x.
Proof.
  intros [H1 H2].
  assert (Hb : forall n, 64 <= n -> Z.testbit x n = false).
  { intros n Hn. assert (x = 0 \/ 0 < x) as [->|Hx] by lia; [apply Z.bits_0|].
    apply Z.bits_above_log2; [lia|]. apply Z.log2_lt_pow2; [lia|].
    eapply Z.lt_le_trans; [exact H2|]. unfold W. apply Z.pow_le_mono_r; lia. }
  change (W - 1) with (Z.ones 64).
  rewrite Z.sub_nocarry_ldiff.
  - apply Z.bits_inj'. intros n Hn.
    rewrite Z.ldiff_spec, Z.lxor_spec, Z.testbit_ones by lia.
    destruct (Z.leb_spec 0 n); [|lia]. destruct (Z.ltb_spec n 64); cbn [andb].
    + destruct (Z.testbit x n); reflexivity.
    + rewrite Hb by lia. reflexivity.
  - apply Z.bits_inj'. intros n Hn.
    rewrite Z.ldiff_spec, Z.bits_0, Z.testbit_ones by lia.
    destruct (Z.leb_spec 0 n); [|lia]. destruct (Z.ltb_spec n 64); cbn [andb negb].
    + apply andb_false_r.
    + rewrite Hb by lia. reflexivity.
Qed.

(** ** While loops in closed form *)

Lemma while_closed {S} (cond : S -> res bool) (body : S -> res S) (st : nat -> S) (m : nat) fuel s :
  (m < fuel)%nat -> s = st O ->
  (forall k, (k < m)%nat -> cond (st k) = Ok true /\ body (st k) = Ok (st (Datatypes.S k))) ->
  cond (st m) = Ok false ->
  while_ fuel cond body s = Ok (st m).
Proof.
  intros Hm -> Hk Hf.
  assert (G : forall f j, (j <= m)%nat -> (m - j < f)%nat -> while_ f cond body (st j) = Ok (st m)).
  { induction f; intros j Hj Hlt; [lia|]. cbn [while_].
    destruct (Nat.eq_dec j m) as [->|].
    - rewrite Hf. reflexivity.
    - destruct (Hk j ltac:(lia)) as [E1 E2]. rewrite E1. cbn [bind]. rewrite E2. cbn [bind].
      apply IHf; lia. }
  apply G; lia.
Qed.
