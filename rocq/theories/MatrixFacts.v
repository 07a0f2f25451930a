(** Closed forms of the operations of Matrix.v. *)
From Coq Require Import ZArith List Bool Lia Ring.
From Verif Require Import Base BaseFacts GSum Matrix.
Import ListNotations.
Open Scope Z_scope.

(** ** arrays of doubles *)
Definition gtab {A} (n : Z) (f : Z -> A) : list (option A) := tab n (fun i => Some (f i)).

Lemma gtab_ext {A} n (f g : Z -> A) : (forall i, 0 <= i < n -> f i = g i) -> gtab n f = gtab n g.
Proof. intros H. apply tab_ext. intros. f_equal. auto. Qed.
Lemma grd_tab {A} n (f : Z -> option A) i : 0 <= i < n -> grd (tab n f) i = match f i with Some x => Ok x | None => Undef end.
Proof. intros H. unfold grd. rewrite lget_tab by auto. reflexivity. Qed.
Lemma grd_gtab {A} n (f : Z -> A) i : 0 <= i < n -> grd (gtab n f) i = Ok (f i).
Proof. intros H. unfold gtab. rewrite grd_tab by auto. reflexivity. Qed.
Lemma gwr_tab {A} n (f : Z -> option A) i x : 0 <= i < n -> gwr (tab n f) i x = Ok (tab n (fun j => if j =? i then Some x else f j)).
Proof. intros H. unfold gwr. apply lset_tab. auto. Qed.
Lemma gfresh_tab A n : gfresh A n = tab n (fun _ => None).
Proof. unfold gfresh, tab. generalize (Z.to_nat n) as m, O. induction m; intros k; cbn; f_equal; auto. Qed.
Lemma repeat_tab {A} (x : A) n : repeat x (Z.to_nat n) = tab n (fun _ => x).
Proof. unfold tab. generalize (Z.to_nat n) as m, O. induction m; intros k; cbn; f_equal; auto. Qed.
Lemma gtab_inj {A} n (f g : Z -> A) : gtab n f = gtab n g -> forall i, 0 <= i < n -> f i = g i.
Proof. intros H i Hi. pose proof (tab_inj _ _ _ H i Hi). congruence. Qed.

Lemma int_in x : - 2 ^ 31 <= x < 2 ^ 31 -> int_ x = Ok x.
Proof.
  intros H. unfold int_, in_int. destruct (Z.leb_spec (- 2 ^ 31) x), (Z.ltb_spec x (2 ^ 31)); try lia. reflexivity.
Qed.
Lemma imod_ok a b : b <> 0 -> imod a b = Ok (Z.rem a b).
Proof. intros. unfold imod. destruct (Z.eqb_spec b 0); [lia|reflexivity]. Qed.

(** filling an array of doubles *)
Lemma fill_gtab {A} n (body : Z -> list (option A) -> res (list (option A))) (g : Z -> option A) (f : Z -> A) :
  0 <= n -> (forall i g, 0 <= i < n -> body i (tab n g) = gwr (tab n g) i (f i)) ->
  for_ 0 n body (tab n g) = Ok (gtab n f).
Proof.
  intros Hn H.
  rewrite (for_closed _ (fun i => tab n (fun j => if j <? i then Some (f j) else g j)) _ _ _ (gtab n f)); auto; try lia.
  - apply tab_ext. intros j Hj. destruct (Z.ltb_spec j 0); [lia|auto].
  - apply tab_ext. intros j Hj. destruct (Z.ltb_spec j n); [auto|lia].
  - intros i Hi. rewrite H, gwr_tab by auto. f_equal. apply tab_ext. intros j Hj.
    destruct (Z.eqb_spec j i), (Z.ltb_spec j i), (Z.ltb_spec j (i + 1)); try lia; subst; auto.
Qed.

(** ** SparseDiagonal *)
Definition sdt {F} (N S : Z) (v : Z -> Z -> option F) (o : Z -> option Z) (z : Z -> option bool) : sd F :=
  mksd (tab S (fun s => tab N (v s))) (tab S o) (tab S z).
Definition sdi {F} (N S : Z) (v : Z -> Z -> F) (o : Z -> Z) (z : Z -> bool) : sd F :=
  mksd (tab S (fun s => gtab N (v s))) (gtab S o) (gtab S z).
Lemma sdi_sdt {F} N S v o z : @sdi F N S v o z = sdt N S (fun s i => Some (v s i)) (fun s => Some (o s)) (fun s => Some (z s)).
Proof. reflexivity. Qed.

Lemma sdt_ext {F} N S (v v' : Z -> Z -> option F) o o' z z' :
  (forall s i, 0 <= s < S -> 0 <= i < N -> v s i = v' s i) ->
  (forall s, 0 <= s < S -> o s = o' s) -> (forall s, 0 <= s < S -> z s = z' s) -> sdt N S v o z = sdt N S v' o' z'.
Proof.
  intros Hv Ho Hz. unfold sdt. f_equal; apply tab_ext; auto. intros s Hs. apply tab_ext. auto.
Qed.
Lemma sdi_ext {F} N S (v v' : Z -> Z -> F) o o' z z' :
  (forall s i, 0 <= s < S -> 0 <= i < N -> v s i = v' s i) ->
  (forall s, 0 <= s < S -> o s = o' s) -> (forall s, 0 <= s < S -> z s = z' s) -> sdi N S v o z = sdi N S v' o' z'.
Proof. intros Hv Ho Hz. apply sdt_ext; intros; f_equal; auto. Qed.

Lemma sd_new_sdt F N S : sd_new F N S = sdt N S (fun _ _ => None) (fun _ => None) (fun _ => None).
Proof. unfold sd_new, sdt. rewrite !gfresh_tab, repeat_tab. reflexivity. Qed.

Definition up1 {A} (f : Z -> A) (i : Z) (x : A) : Z -> A := fun j => if j =? i then x else f j.
Definition up2 {A} (f : Z -> Z -> A) (s i : Z) (x : A) : Z -> Z -> A :=
  fun t j => if (t =? s) && (j =? i) then x else f t j.

Section F.
Context {F : Type}.
Implicit Types (v : Z -> Z -> option F) (w : Z -> Z -> F).

Lemma get_vec_sdt N S v o z s i : 0 <= s < S -> 0 <= i < N ->
  get_vec (sdt N S v o z) s i = match v s i with Some x => Ok x | None => Undef end.
Proof. intros Hs Hi. unfold get_vec, sdt; cbn [vec]. rewrite lget_tab by auto. cbn [bind]. rewrite grd_tab by auto. reflexivity. Qed.
Lemma get_vec_sdi N S w o z s i : 0 <= s < S -> 0 <= i < N -> get_vec (sdi N S w o z) s i = Ok (w s i).
Proof. intros Hs Hi. rewrite sdi_sdt, get_vec_sdt by auto. reflexivity. Qed.
Lemma get_off_sdt N S v o z s : 0 <= s < S -> get_off (sdt N S v o z) s = match o s with Some x => Ok x | None => Undef end.
Proof. intros Hs. unfold get_off, sdt; cbn [off]. rewrite grd_tab by auto. reflexivity. Qed.
Lemma get_off_sdi N S w o z s : 0 <= s < S -> get_off (sdi N S w o z) s = Ok (o s).
Proof. intros Hs. rewrite sdi_sdt, get_off_sdt by auto. reflexivity. Qed.
Lemma get_zero_sdt N S v o z s : 0 <= s < S -> get_zero (sdt N S v o z) s = match z s with Some x => Ok x | None => Undef end.
Proof. intros Hs. unfold get_zero, sdt; cbn [zro]. rewrite grd_tab by auto. reflexivity. Qed.
Lemma get_zero_sdi N S w o z s : 0 <= s < S -> get_zero (sdi N S w o z) s = Ok (z s).
Proof. intros Hs. rewrite sdi_sdt, get_zero_sdt by auto. reflexivity. Qed.

Lemma set_vec_sdt N S v o z s i x : 0 <= s < S -> 0 <= i < N ->
  set_vec (sdt N S v o z) s i x = Ok (sdt N S (up2 v s i (Some x)) o z).
Proof.
  intros Hs Hi. unfold set_vec, sdt; cbn [vec off zro]. rewrite lget_tab by auto. cbn [bind].
  rewrite gwr_tab by auto. cbn [bind]. rewrite lset_tab by auto. cbn [bind]. f_equal. f_equal.
  apply tab_ext. intros t Ht. unfold up2. destruct (Z.eqb_spec t s); cbn [andb]; subst; auto.
Qed.
Lemma set_off_sdt N S v o z s x : 0 <= s < S -> set_off (sdt N S v o z) s x = Ok (sdt N S v (up1 o s (Some x)) z).
Proof.
  intros Hs. unfold set_off, sdt; cbn [vec off zro]. rewrite gwr_tab by auto. cbn [bind]. reflexivity.
Qed.
Lemma set_zero_sdt N S v o z s x : 0 <= s < S -> set_zero (sdt N S v o z) s x = Ok (sdt N S v o (up1 z s (Some x))).
Proof.
  intros Hs. unfold set_zero, sdt; cbn [vec off zro]. rewrite gwr_tab by auto. cbn [bind]. reflexivity.
Qed.
Lemma set_vec_sdi N S w o z s i x : 0 <= s < S -> 0 <= i < N ->
  set_vec (sdi N S w o z) s i x = Ok (sdi N S (up2 w s i x) o z).
Proof.
  intros Hs Hi. rewrite !sdi_sdt, set_vec_sdt by auto. f_equal. apply sdt_ext; auto. intros t j _ _.
  unfold up2. destruct ((t =? s) && (j =? i)); auto.
Qed.
Lemma set_off_sdi N S w o z s x : 0 <= s < S -> set_off (sdi N S w o z) s x = Ok (sdi N S w (up1 o s x) z).
Proof.
  intros Hs. rewrite !sdi_sdt, set_off_sdt by auto. f_equal. apply sdt_ext; auto. intros t _.
  unfold up1. destruct (t =? s); auto.
Qed.
Lemma set_zero_sdi N S w o z s x : 0 <= s < S -> set_zero (sdi N S w o z) s x = Ok (sdi N S w o (up1 z s x)).
Proof.
  intros Hs. rewrite !sdi_sdt, set_zero_sdt by auto. f_equal. apply sdt_ext; auto. intros t _.
  unfold up1. destruct (t =? s); auto.
Qed.

(** A loop over one row. *)
Definition row_upto (v : Z -> Z -> option F) (s i : Z) (f : Z -> F) : Z -> Z -> option F :=
  fun t j => if (t =? s) && (j <? i) then Some (f j) else v t j.

Lemma row_loop N S v o z s (f : Z -> F) body : 0 <= N -> 0 <= s < S ->
  (forall i v', 0 <= i < N -> (forall j, i <= j -> v' s j = v s j) -> (forall t j, t <> s -> v' t j = v t j) ->
     body i (sdt N S v' o z) = Ok (sdt N S (up2 v' s i (Some (f i))) o z)) ->
  for_ 0 N body (sdt N S v o z) = Ok (sdt N S (row_upto v s N f) o z).
Proof.
  intros HN Hs H.
  rewrite (for_closed _ (fun i => sdt N S (row_upto v s i f) o z) _ _ _ (sdt N S (row_upto v s N f) o z)); auto; try lia.
  - apply sdt_ext; auto. intros t j _ Hj. unfold row_upto. destruct (Z.ltb_spec j 0); [lia|]. rewrite andb_false_r. auto.
  - intros i Hi. rewrite H; auto.
    + f_equal. apply sdt_ext; auto. intros t j _ Hj. unfold up2, row_upto.
      destruct (Z.eqb_spec t s); cbn [andb]; auto.
      destruct (Z.eqb_spec j i), (Z.ltb_spec j i), (Z.ltb_spec j (i + 1)); try lia; subst; auto.
    + intros j Hj. unfold row_upto. destruct (Z.ltb_spec j i); [lia|]. rewrite andb_false_r. auto.
    + intros t j Ht. unfold row_upto. destruct (Z.eqb_spec t s); [lia|]. auto.
Qed.

(** A loop over the diagonals, each round of which replaces row, offset and flag [s]. *)
Definition rows_upto {A} (f g : Z -> A) (n : Z) : Z -> A := fun s => if s <? n then f s else g s.

Lemma rows_loop N S v o z v1 o1 z1 body : 0 <= S ->
  (forall s v' o' z', 0 <= s < S ->
     (forall t, s <= t -> v' t = v t) -> (forall t, s <= t -> o' t = o t) -> (forall t, s <= t -> z' t = z t) ->
     body s (sdt N S v' o' z') = Ok (sdt N S (up1 v' s (v1 s)) (up1 o' s (o1 s)) (up1 z' s (z1 s)))) ->
  for_ 0 S body (sdt N S v o z) = Ok (sdt (F := F) N S v1 o1 z1).
Proof.
  intros HS H.
  rewrite (for_closed _ (fun s => sdt N S (rows_upto v1 v s) (rows_upto o1 o s) (rows_upto z1 z s)) _ _ _ (sdt N S v1 o1 z1)); auto; try lia.
  - apply sdt_ext; unfold rows_upto; intros s; intros; destruct (Z.ltb_spec s 0); auto; lia.
  - apply sdt_ext; unfold rows_upto; intros s; intros; destruct (Z.ltb_spec s S); auto; lia.
  - intros s Hs. rewrite H; auto; try (intros t Ht; unfold rows_upto; destruct (Z.ltb_spec t s); [lia|auto]).
    f_equal. apply sdt_ext; unfold rows_upto, up1; intros t; intros;
      destruct (Z.eqb_spec t s), (Z.ltb_spec t s), (Z.ltb_spec t (s + 1)); try lia; subst; auto.
Qed.
End F.

(** ** the operations *)
Section Ops.
Context {K : ops}.
Implicit Types (v w : Z -> Z -> K) (o : Z -> Z) (z : Z -> bool).

Ltac rowfin := f_equal; apply sdt_ext; auto; unfold row_upto, up1, up2; intros t;
  intros; match goal with |- context [t =? ?s] => destruct (Z.eqb_spec t s) end; cbn [andb]; subst; auto;
  match goal with |- context [?j <? ?n] => destruct (Z.ltb_spec j n); auto; lia | _ => idtac end.

Lemma sd_setzero_ok N S (A : sd K) (a0 : Z -> Z -> option K) b0 c0 : 0 <= N -> 0 <= S -> A = sdt N S a0 b0 c0 ->
  sd_setzero N S A = Ok (sdi N S (fun _ _ => 0%num) (fun _ => 0) (fun _ => true)).
Proof.
  intros HN HS ->. unfold sd_setzero. rewrite sdi_sdt.
  apply rows_loop; auto. intros s v' o' z' Hs Hv Ho Hz.
  rewrite (row_loop N S v' o' z' s (fun _ => 0%num)); auto.
  2:{ intros. apply set_vec_sdt; auto. }
  cbn [bind]. rewrite set_zero_sdt by auto. cbn [bind]. rewrite set_off_sdt by auto. rowfin.
Qed.

Lemma sd_copy_ok N S D (v : Z -> Z -> K) o z (a0 : Z -> Z -> option K) b0 c0 : 0 <= N -> 0 <= S -> D = sdt N S a0 b0 c0 ->
  sd_copy N S D (sdi N S v o z) = Ok (sdi N S v o z).
Proof.
  intros HN HS ->. unfold sd_copy.
  apply (rows_loop N S a0 b0 c0 (fun s i => Some (v s i)) (fun s => Some (o s)) (fun s => Some (z s))); auto. intros s v' o' z' Hs Hv Ho Hz.
  rewrite (row_loop N S v' o' z' s (v s)); auto.
  2:{ intros. rewrite get_vec_sdi by auto. cbn [bind]. apply set_vec_sdt; auto. }
  cbn [bind]. rewrite get_off_sdi by auto. cbn [bind]. rewrite set_off_sdt by auto. cbn [bind].
  rewrite get_zero_sdi by auto. cbn [bind]. rewrite set_zero_sdt by auto. rowfin.
Qed.

Lemma map_rows N S v o z (f : Z -> Z -> K) body : 0 <= N -> 0 <= S ->
  (forall s i (v' : Z -> Z -> option K), 0 <= s < S -> 0 <= i < N -> v' s i = Some (v s i) -> forall (o' : Z -> option Z) (z' : Z -> option bool),
     body s i (sdt N S v' o' z') = Ok (sdt N S (up2 v' s i (Some (f s i))) o' z')) ->
  for_ 0 S (fun s A => for_ 0 N (body s) A) (sdi N S v o z) = Ok (sdi N S f o z).
Proof.
  intros HN HS H. rewrite !sdi_sdt.
  apply rows_loop; auto. intros s v' o' z' Hs Hv Ho Hz.
  rewrite (row_loop N S v' o' z' s (f s)); auto.
  - f_equal. apply sdt_ext.
    + unfold row_upto, up1, up2; intros t j Ht Hj.
      destruct (Z.eqb_spec t s); cbn [andb]; subst; auto. destruct (Z.ltb_spec j N); auto; lia.
    + intros t Ht. unfold up1. destruct (Z.eqb_spec t s); subst; auto. rewrite Ho by lia. reflexivity.
    + intros t Ht. unfold up1. destruct (Z.eqb_spec t s); subst; auto. rewrite Hz by lia. reflexivity.
  - intros i v'' Hi Hr Ht. apply H; auto. rewrite Hr by lia. rewrite Hv by lia. reflexivity.
Qed.

Lemma sd_scale_ok N S v o z a : 0 <= N -> 0 <= S ->
  sd_scale N S (sdi N S v o z) a = Ok (sdi N S (fun s i => (v s i * a)%num) o z).
Proof.
  intros HN HS. unfold sd_scale. apply (map_rows N S v o z _ (fun s i A => x <- get_vec A s i ;; set_vec A s i (x * a)%num)); auto.
  intros s i v' Hs Hi E o' z'. rewrite get_vec_sdt, E by auto. cbn [bind]. apply set_vec_sdt; auto.
Qed.

Lemma sd_negate_ok N S v o z : 0 <= N -> 0 <= S ->
  sd_negate N S (sdi N S v o z) = Ok (sdi N S (fun s i => (- v s i)%num) o z).
Proof.
  intros HN HS. unfold sd_negate. apply (map_rows N S v o z _ (fun s i A => x <- get_vec A s i ;; set_vec A s i (- x)%num)); auto.
  intros s i v' Hs Hi E o' z'. rewrite get_vec_sdt, E by auto. cbn [bind]. apply set_vec_sdt; auto.
Qed.

Lemma sd_add_ok N S v o z v2 o2 z2 : 0 <= N -> 0 <= S -> (forall s, 0 <= s < S -> o s = o2 s) ->
  sd_add N S (sdi N S v o z) (sdi N S v2 o2 z2) = Ok (sdi N S (fun s i => (v s i + v2 s i)%num) o z).
Proof.
  intros HN HS E. unfold sd_add. rewrite (sdi_sdt N S v).
  apply (rows_loop N S _ _ _ (fun s i => Some (v s i + v2 s i)%num) (fun s => Some (o s)) (fun s => Some (z s))); auto. intros s v' o' z' Hs Hv Ho Hz.
  rewrite get_off_sdt by auto. rewrite Ho by lia. cbn [bind]. rewrite get_off_sdi by auto. cbn [bind].
  destruct (Z.eqb_spec (o s) (o2 s)) as [_|n]; [|destruct n; auto]. cbn [assert_ bind].
  rewrite (row_loop N S v' o' z' s (fun i => (v s i + v2 s i)%num)); auto.
  - f_equal. apply sdt_ext.
    + unfold row_upto, up1, up2; intros t j Ht Hj.
      destruct (Z.eqb_spec t s); cbn [andb]; subst; auto. destruct (Z.ltb_spec j N); auto; lia.
    + intros t Ht. unfold up1. destruct (Z.eqb_spec t s); subst; auto. rewrite Ho by lia. reflexivity.
    + intros t Ht. unfold up1. destruct (Z.eqb_spec t s); subst; auto. rewrite Hz by lia. reflexivity.
  - intros i v'' Hi Hr Ht. rewrite get_vec_sdt by auto. rewrite Hr, Hv by lia. cbn [bind].
    rewrite get_vec_sdi by auto. cbn [bind]. apply set_vec_sdt; auto.
Qed.

Lemma sd_sub_ok N S v o z v2 o2 z2 : 0 <= N -> 0 <= S -> (forall s, 0 <= s < S -> o s = o2 s) ->
  sd_sub N S (sdi N S v o z) (sdi N S v2 o2 z2) = Ok (sdi N S (fun s i => (v s i - v2 s i)%num) o z).
Proof.
  intros HN HS E. unfold sd_sub. rewrite (sdi_sdt N S v).
  apply (rows_loop N S _ _ _ (fun s i => Some (v s i - v2 s i)%num) (fun s => Some (o s)) (fun s => Some (z s))); auto. intros s v' o' z' Hs Hv Ho Hz.
  rewrite get_off_sdt by auto. rewrite Ho by lia. cbn [bind]. rewrite get_off_sdi by auto. cbn [bind].
  destruct (Z.eqb_spec (o s) (o2 s)) as [_|n]; [|destruct n; auto]. cbn [assert_ bind].
  rewrite (row_loop N S v' o' z' s (fun i => (v s i - v2 s i)%num)); auto.
  - f_equal. apply sdt_ext.
    + unfold row_upto, up1, up2; intros t j Ht Hj.
      destruct (Z.eqb_spec t s); cbn [andb]; subst; auto. destruct (Z.ltb_spec j N); auto; lia.
    + intros t Ht. unfold up1. destruct (Z.eqb_spec t s); subst; auto. rewrite Ho by lia. reflexivity.
    + intros t Ht. unfold up1. destruct (Z.eqb_spec t s); subst; auto. rewrite Hz by lia. reflexivity.
  - intros i v'' Hi Hr Ht. rewrite get_vec_sdt by auto. rewrite Hr, Hv by lia. cbn [bind].
    rewrite get_vec_sdi by auto. cbn [bind]. apply set_vec_sdt; auto.
Qed.

(** transposed row [s] and its offset *)
Definition tr_off N (o : Z -> Z) s := if o s >? 0 then N - o s else o s.
Definition tr_vec N (v : Z -> Z -> K) (o : Z -> Z) s i := if o s >? 0 then v s ((i - o s) mod N) else v s i.

Lemma sd_transpose_ok N S v o z : 0 < N < 2 ^ 30 -> 0 <= S -> (forall s, 0 <= s < S -> o s < N) ->
  sd_transpose N S (sdi N S v o z) = Ok (sdi N S (tr_vec N v o) (tr_off N o) z).
Proof.
  intros HN HS Hoff. unfold sd_transpose. rewrite (sdi_sdt N S v), (sdi_sdt N S (tr_vec N v o)).
  apply rows_loop; auto. intros s v' o' z' Hs Hv Ho Hz.
  rewrite get_off_sdt by auto. rewrite Ho by lia. cbn [bind].
  pose proof (Hoff s Hs) as Hos. unfold tr_off, tr_vec.
  destruct (Z.gtb_spec (o s) 0) as [Hpos|Hpos].
  - rewrite gfresh_tab.
    rewrite (for_closed _ (fun i => tab N (fun j => if ((j - o s) mod N <? i) then Some (v s ((j - o s) mod N)) else None)) _ _ _
        (gtab N (fun j => v s ((j - o s) mod N)))); auto; try lia.
    + cbn [bind].
      rewrite (row_loop N S v' o' z' s (fun j => v s ((j - o s) mod N))); auto; try lia.
      2:{ intros i v'' Hi _ _. rewrite grd_gtab by auto. cbn [bind]. apply set_vec_sdt; auto. }
      cbn [bind]. rewrite int_in by lia. cbn [bind]. rewrite set_off_sdt by auto. f_equal. apply sdt_ext.
      * unfold row_upto, up1; intros t j Ht Hj.
        destruct (Z.eqb_spec t s); cbn [andb]; subst; auto. destruct (Z.ltb_spec j N); auto; lia.
      * intros t Ht. unfold up1. destruct (Z.eqb_spec t s); subst; auto.
      * intros t Ht. unfold up1. destruct (Z.eqb_spec t s); subst; auto. rewrite Hz by lia. reflexivity.
    + apply tab_ext. intros j Hj. pose proof (Z.mod_pos_bound (j - o s) N ltac:(lia)).
      destruct (Z.ltb_spec ((j - o s) mod N) 0); [lia|auto].
    + apply tab_ext. intros j Hj. pose proof (Z.mod_pos_bound (j - o s) N ltac:(lia)).
      destruct (Z.ltb_spec ((j - o s) mod N) N); [auto|lia].
    + intros i Hi. rewrite int_in by lia. cbn [bind]. rewrite get_vec_sdt by auto. rewrite Hv by lia. cbn [bind].
      assert (Hwr : forall k, 0 <= k < N -> (k - o s) mod N = i ->
        gwr (tab N (fun j => if (j - o s) mod N <? i then Some (v s ((j - o s) mod N)) else None)) k (v s i)
        = Ok (tab N (fun j => if (j - o s) mod N <? i + 1 then Some (v s ((j - o s) mod N)) else None))).
      { intros k Hk Ek. rewrite gwr_tab by auto. f_equal. apply tab_ext. intros j Hj.
        assert (Hjk : (j - o s) mod N = i -> j = k).
        { intros Ej. rewrite <- Ek in Ej.
          assert (Hd : (j - k) mod N = 0).
          { replace (j - k) with ((j - o s) - (k - o s)) by lia. rewrite Zminus_mod, Ej, Z.sub_diag. apply Z.mod_0_l. lia. }
          apply Z.mod_divide in Hd; [|lia]. destruct Hd as [c Hc]. assert (c = 0) by (destruct (Z.lt_trichotomy c 0) as [?|[?|?]]; nia). nia. }
        destruct (Z.eqb_spec j k) as [->|Hne].
        - rewrite Ek. destruct (Z.ltb_spec i (i + 1)); [auto|lia].
        - destruct (Z.ltb_spec ((j - o s) mod N) i), (Z.ltb_spec ((j - o s) mod N) (i + 1)); auto; try lia. }
      destruct (Z.ltb_spec i (N - o s)).
      * rewrite int_in by lia. cbn [bind]. apply Hwr; [lia|]. replace (o s + i - o s) with i by lia. apply Z.mod_small. lia.
      * apply Hwr; [lia|]. replace (i - (N - o s) - o s) with (i + (-1) * N) by lia. rewrite Z.mod_add by lia. apply Z.mod_small. lia.
  - f_equal. apply sdt_ext; intros t; intros; unfold up1; destruct (Z.eqb_spec t s); subst; auto.
    + rewrite Hv by lia. auto.
    + rewrite Ho by lia. auto.
    + rewrite Hz by lia. auto.
Qed.

(** ** the diagonal test *)
Definition ondiag (N i j o : Z) := (j - i - o) mod N =? 0.
Lemma on_diag_ok (N i j o : Z) : 0 < N <= 2 ^ 30 -> 0 <= i < N -> 0 <= j < N -> - 2 ^ 30 <= o <= 2 ^ 30 ->
  on_diag N i j o = Ok (ondiag N i j o).
Proof.
  intros HN Hi Hj Ho. unfold on_diag. rewrite int_in by lia. cbn [bind]. rewrite int_in by lia. cbn [bind].
  rewrite imod_ok by lia. cbn [bind]. f_equal. unfold ondiag.
  destruct (Z.eqb_spec (Z.rem (j - i - o) N) 0) as [H|H], (Z.eqb_spec ((j - i - o) mod N) 0) as [H'|H']; auto; exfalso.
  - apply H'. apply Z.rem_divide in H; [|lia]. apply Z.mod_divide; [lia|auto].
  - apply H. apply Z.mod_divide in H'; [|lia]. apply Z.rem_divide; [lia|auto].
Qed.

Lemma ondiag_iff (N i j o : Z) : 0 < N -> 0 <= j < N -> ondiag N i j o = (j =? (i + o) mod N).
Proof.
  intros HN Hj. unfold ondiag. destruct (Z.eqb_spec ((j - i - o) mod N) 0) as [H|H], (Z.eqb_spec j ((i + o) mod N)) as [H'|H']; auto; exfalso.
  - apply H'. apply Z.mod_divide in H; [|lia]. destruct H as [c Hc]. replace (i + o) with (j + (- c) * N) by lia.
    rewrite Z.mod_add by lia. symmetry. apply Z.mod_small. auto.
  - apply H. rewrite H'. replace ((i + o) mod N - i - o) with ((i + o) mod N - (i + o)) by lia.
    rewrite Zminus_mod_idemp_l. rewrite Z.sub_diag. apply Z.mod_0_l. lia.
Qed.

(** number of the first diagonal through (i,j), [S] if there is none *)
Fixpoint first_from (fuel : nat) N i j (o : Z -> Z) (s : Z) : Z :=
  match fuel with
  | O => s
  | Datatypes.S f => if ondiag N i j (o s) then s else first_from f N i j o (s + 1)
  end.
Definition first_diag N S i j o := first_from (Z.to_nat S) N i j o 0.

Lemma first_from_spec f N i j o : forall s, let r := first_from f N i j o s in
  s <= r <= s + Z.of_nat f /\ (forall t, s <= t < r -> ondiag N i j (o t) = false) /\
  (r < s + Z.of_nat f -> ondiag N i j (o r) = true).
Proof.
  induction f; intros s r; subst r; cbn [first_from].
  - repeat split; intros; lia.
  - destruct (ondiag N i j (o s)) eqn:E.
    + repeat split; intros; try lia; auto.
    + specialize (IHf (s + 1)). cbv zeta in IHf. destruct IHf as (H1 & H2 & H3). repeat split; try lia.
      * intros t Ht. destruct (Z.eq_dec t s); [subst; auto|]. apply H2. lia.
      * intros Hr. apply H3. lia.
Qed.

Lemma first_diag_spec N S i j o : 0 <= S -> let r := first_diag N S i j o in
  0 <= r <= S /\ (forall t, 0 <= t < r -> ondiag N i j (o t) = false) /\ (r < S -> ondiag N i j (o r) = true).
Proof.
  intros HS. pose proof (first_from_spec (Z.to_nat S) N i j o 0) as H. cbv zeta in *. unfold first_diag.
  rewrite Z2Nat.id, Z.add_0_l in H by lia. exact H.
Qed.

Definition off_ok S (o : Z -> Z) := forall s, 0 <= s < S -> - 2 ^ 30 <= o s <= 2 ^ 30.

Lemma get_element_ok N S v o z i j : 0 < N <= 2 ^ 30 -> 0 <= S -> off_ok S o -> 0 <= i < N -> 0 <= j < N ->
  get_element N S (sdi N S v o z) i j = Ok (let r := first_diag N S i j o in if r <? S then v r i else 0%num).
Proof.
  intros HN HS Ho Hi Hj. unfold get_element. pose proof (first_diag_spec N S i j o HS) as H. cbv zeta in *.
  set (r := first_diag N S i j o) in *. destruct H as (Hr & H1 & H2).
  rewrite (for_closed _ (fun s => if r <? s then Some (v r i) else None) _ _ _ (if r <? S then Some (v r i) else None)); auto; try lia.
  - cbn [bind]. destruct (r <? S); auto.
  - destruct (Z.ltb_spec r 0); [lia|auto].
  - intros s Hs. destruct (Z.ltb_spec r s).
    + destruct (Z.ltb_spec r (s + 1)); [auto|lia].
    + rewrite get_off_sdi by auto. cbn [bind]. rewrite on_diag_ok by (auto; apply Ho; auto). cbn [bind].
      destruct (Z.eq_dec s r) as [->|Hne].
      * rewrite H2 by lia. rewrite get_vec_sdi by auto. cbn [bind]. destruct (Z.ltb_spec r (r + 1)); [auto|lia].
      * rewrite H1 by lia. destruct (Z.ltb_spec r (s + 1)); [lia|auto].
Qed.

Lemma set_element_ok N S v o z i j x : 0 < N <= 2 ^ 30 -> 0 <= S -> off_ok S o -> 0 <= i < N -> 0 <= j < N ->
  set_element N S (sdi N S v o z) i j x =
  let r := first_diag N S i j o in if r <? S then Ok (sdi N S (up2 v r i x) o (up1 z r false)) else Abort.
Proof.
  intros HN HS Ho Hi Hj. unfold set_element. pose proof (first_diag_spec N S i j o HS) as H. cbv zeta in *.
  set (r := first_diag N S i j o) in *. destruct H as (Hr & H1 & H2).
  rewrite (for_closed _ (fun s => if r <? s then (sdi N S (up2 v r i x) o (up1 z r false), true) else (sdi N S v o z, false)) _ _ _
     (if r <? S then (sdi N S (up2 v r i x) o (up1 z r false), true) else (sdi N S v o z, false))); auto; try lia.
  - cbn [bind]. destruct (r <? S); auto.
  - destruct (Z.ltb_spec r 0); [lia|auto].
  - intros s Hs. destruct (Z.ltb_spec r s).
    + destruct (Z.ltb_spec r (s + 1)); [auto|lia].
    + rewrite get_off_sdi by auto. cbn [bind]. rewrite on_diag_ok by (auto; apply Ho; auto). cbn [bind].
      destruct (Z.eq_dec s r) as [->|Hne].
      * rewrite H2 by lia. rewrite set_vec_sdi by auto. cbn [bind]. rewrite set_zero_sdi by auto. cbn [bind].
        destruct (Z.ltb_spec r (r + 1)); [auto|lia].
      * rewrite H1 by lia. destruct (Z.ltb_spec r (s + 1)); [lia|auto].
Qed.
End Ops.
