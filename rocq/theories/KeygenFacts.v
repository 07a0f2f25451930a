(** Key generation. *)
From Coq Require Import ZArith List Bool Lia.
From Verif Require Import Base BaseFacts Sums SpecPoly SpecScheme NTTFacts PolyRing CoreFacts Core.
Import ListNotations.
Open Scope Z_scope.

Definition kg_cond (s : arr) : Z * nat -> res bool := fun '(j, pos) => x <- rd s j ;; Ok (negb (x =? 0)).
Definition kg_next (N : Z) (rnd : nat -> Z) : Z * nat -> res (Z * nat) := fun '(j, pos) => Ok (Z.rem (rnd pos) N, S pos).
Definition kg_step (fuel : nat) (N : Z) (rnd : nat -> Z) : Z -> arr * nat -> res (arr * nat) := fun _ '(s, pos) =>
  '(j, pos) <- while_ fuel (kg_cond s) (kg_next N rnd) (Z.rem (rnd pos) N, S pos) ;;
  s <- wr s j (if Z.rem (rnd pos) 2 =? 0 then 1 else -1) ;; Ok (s, S pos).

Section KG.
  Variables (N : Z) (rnd : nat -> Z).
  Hypothesis HN : 1 <= N.
  Hypothesis Hr : forall k, 0 <= rnd k.

  Definition tern_f (f : Z -> Z) : Prop := forall i, 0 <= i < N -> f i = -1 \/ f i = 0 \/ f i = 1.
  Definition kg_inv (i : Z) (st : arr * nat) : Prop :=
    exists f, fst st = wtab N f /\ tern_f f /\ norm1 N f = i.

  Lemma idx p : 0 <= Z.rem (rnd p) N < N.
  Proof. apply Z.rem_bound_pos; auto; lia. Qed.

  (** Only the position drawn changes. *)
  Lemma kg_set f j x : 0 <= j < N -> f j = 0 -> tern_f f -> x = 1 \/ x = -1 ->
    tern_f (fun k => if k =? j then x else f k) /\ norm1 N (fun k => if k =? j then x else f k) = norm1 N f + 1.
  Proof.
    intros Hj Hf Ht Hx. split.
    - intros i Hi. destruct (i =? j); [destruct Hx; auto|auto].
    - unfold norm1. rewrite (zsum_ext N (fun k => Z.abs (if k =? j then x else f k)) (fun k => Z.abs (f k) + (if k =? j then 1 else 0))).
      + rewrite zsum_add. f_equal. rewrite (zsum_single N j); auto; [rewrite Z.eqb_refl; auto|].
        intros i Hi Hne. destruct (Z.eqb_spec i j); [lia|auto].
      + intros i Hi. destruct (Z.eqb_spec i j); [subst; rewrite Hf; destruct Hx; subst; reflexivity|lia].
  Qed.

  (** The search never fails: it finds an empty position or runs on. *)
  Lemma kg_search f : tern_f f -> forall fuel j pos, 0 <= j < N ->
    while_ fuel (kg_cond (wtab N f)) (kg_next N rnd) (j, pos) = Diverge \/
    exists j' pos', while_ fuel (kg_cond (wtab N f)) (kg_next N rnd) (j, pos) = Ok (j', pos') /\ 0 <= j' < N /\ f j' = 0.
  Proof.
    intros Ht. induction fuel as [|fuel IH]; intros j pos Hj; [left; reflexivity|].
    cbn [while_]. unfold kg_cond at 1 3. rewrite rd_wtab by auto. cbn [bind].
    destruct (Z.eqb_spec (f j) 0) as [E|E]; cbn [negb].
    - right. exists j, pos. auto.
    - unfold kg_next at 1 3. cbn [bind]. apply IH. apply idx.
  Qed.

  Lemma kg_step_safe fuel i st : kg_inv i st ->
    kg_step fuel N rnd i st = Diverge \/ exists st', kg_step fuel N rnd i st = Ok st' /\ kg_inv (i + 1) st'.
  Proof.
    destruct st as [s pos]. intros (f & Es & Ht & Hn). cbn [fst] in Es. subst s. unfold kg_step.
    destruct (kg_search f Ht fuel (Z.rem (rnd pos) N) (S pos) (idx pos)) as [E|(j & p & E & Hj & Hf)]; rewrite E; cbn [bind].
    - left. reflexivity.
    - right. rewrite wr_wtab by auto. cbn [bind]. eexists. split; [reflexivity|].
      destruct (kg_set f j (if Z.rem (rnd p) 2 =? 0 then 1 else -1) Hj Hf Ht) as [H1 H2].
      { destruct (_ =? 0); auto. }
      eexists. cbn [fst]. split; [reflexivity|]. split; auto. lia.
  Qed.

  Lemma kg_loop_safe fuel h : 0 <= h -> forall st, kg_inv 0 st ->
    for_ 0 h (kg_step fuel N rnd) st = Diverge \/ exists st', for_ 0 h (kg_step fuel N rnd) st = Ok st' /\ kg_inv h st'.
  Proof.
    intros Hh. revert h Hh. apply (natlike_ind (fun h => forall st, kg_inv 0 st ->
       for_ 0 h (kg_step fuel N rnd) st = Diverge \/ exists st', for_ 0 h (kg_step fuel N rnd) st = Ok st' /\ kg_inv h st')).
    - intros st Hst. right. exists st. rewrite for_nil by lia. auto.
    - intros h Hh IH st Hst. unfold Z.succ. rewrite (for_split _ 0 h (h + 1)) by lia.
      destruct (IH st Hst) as [E|(st' & E & Hi)]; rewrite E; cbn [bind]; [left; auto|].
      rewrite for_step by lia. destruct (kg_step_safe fuel h st' Hi) as [E2|(st2 & E2 & Hi2)]; rewrite E2; cbn [bind].
      + left; auto.
      + right. exists st2. rewrite for_nil by lia. auto.
  Qed.

  Lemma keygen_eq fuel h D pos : 0 <= N -> length D = Z.to_nat N ->
    keygen fuel N rnd h D pos = for_ 0 h (kg_step fuel N rnd) (wtab N (fun _ => 0), pos).
  Proof.
    intros _ HD. unfold keygen. destruct (arr_tab None D N HD) as [g ->].
    rewrite (for_closed _ (fun i => tab N (fun k => if k <? i then Some 0 else g k)) _ _ _ (wtab N (fun _ => 0))).
    - reflexivity.
    - lia.
    - apply tab_ext. intros k Hk. zc; auto.
    - apply tab_ext. intros k Hk. zc; auto.
    - intros i Hi. rewrite wr_tab by auto. f_equal. apply tab_ext. intros k Hk. cmp3 k i.
  Qed.
  Lemma kg_init pos : kg_inv 0 (wtab N (fun _ => 0), pos).
  Proof. exists (fun _ => 0). split; auto. split; [intros i Hi; auto|]. apply zsum_zero. auto. Qed.

  Lemma norm1_tern f : tern_f f -> norm1 N f <= N.
  Proof.
    intros Ht. unfold norm1. rewrite <- (Z.mul_1_r N) at 2. rewrite <- zsum_const by lia. apply zsum_le.
    intros i Hi. destruct (Ht i Hi) as [->|[->| ->]]; cbn; lia.
  Qed.
  Lemma free_position f : tern_f f -> norm1 N f < N -> exists j, 0 <= j < N /\ f j = 0.
  Proof.
    intros Ht Hn.
    assert (Hd : forall n, 0 <= n -> n <= N -> (exists j, 0 <= j < n /\ f j = 0) \/ zsum n (fun k => Z.abs (f k)) = n).
    { apply (natlike_ind (fun n => n <= N -> (exists j, 0 <= j < n /\ f j = 0) \/ zsum n (fun k => Z.abs (f k)) = n)).
      - intros _. right. reflexivity.
      - intros n Hn0 IH Hle. destruct IH as [(j & Hj & E)|E]; [lia| |].
        + left. exists j. split; auto. lia.
        + destruct (Ht n ltac:(lia)) as [E1|[E1|E1]].
          * right. unfold Z.succ. rewrite zsum_S, E, E1 by lia. reflexivity.
          * left. exists n. split; auto. lia.
          * right. unfold Z.succ. rewrite zsum_S, E, E1 by lia. reflexivity. }
    destruct (Hd N ltac:(lia) ltac:(lia)) as [H|H]; auto. unfold norm1 in Hn. lia.
  Qed.

  (** Every position is drawn again and again. *)
  Definition fair : Prop := forall j p, 0 <= j < N -> exists k, (p <= k)%nat /\ Z.rem (rnd k) N = j.

  Lemma least (P : nat -> bool) : forall n, P n = true -> exists m, P m = true /\ forall k, (k < m)%nat -> P k = false.
  Proof.
    induction n as [n IH] using lt_wf_ind. intros Hn.
    destruct (existsb P (seq 0 n)) eqn:E.
    - apply existsb_exists in E. destruct E as (m & Hm & HP). apply in_seq in Hm. apply (IH m); auto. lia.
    - exists n. split; auto. intros k Hk. destruct (P k) eqn:Ek; auto. exfalso.
      assert (existsb P (seq 0 n) = true) by (apply existsb_exists; exists k; split; auto; apply in_seq; lia). congruence.
  Qed.

  Lemma kg_step_total i st : fair -> kg_inv i st -> i < N ->
    exists F st', (forall fuel, (F <= fuel)%nat -> kg_step fuel N rnd i st = Ok st') /\ kg_inv (i + 1) st'.
  Proof.
    intros Hfair Hst Hi. assert (Hst0 := Hst). destruct st as [s pos]. destruct Hst as (f & Es & Ht & Hn). cbn [fst] in Es. subst s.
    destruct (free_position f Ht ltac:(lia)) as (j & Hj & Hf). destruct (Hfair j pos Hj) as (k & Hk & Ek).
    destruct (least (fun m => f (Z.rem (rnd (pos + m)%nat) N) =? 0) (k - pos)%nat) as (m & Hm & Hlt).
    { replace (pos + (k - pos))%nat with k by lia. rewrite Ek, Hf. reflexivity. }
    apply Z.eqb_eq in Hm.
    assert (E : forall fuel, (S m <= fuel)%nat -> while_ fuel (kg_cond (wtab N f)) (kg_next N rnd) (Z.rem (rnd pos) N, S pos) =
       Ok (Z.rem (rnd (pos + m)%nat) N, S (pos + m))).
    { intros fuel Hfu. rewrite (while_closed _ _ (fun k => (Z.rem (rnd (pos + k)%nat) N, S (pos + k))) m); auto.
      - rewrite Nat.add_0_r. reflexivity.
      - intros q Hq. split.
        + unfold kg_cond. rewrite rd_wtab by apply idx. cbn [bind]. rewrite (Hlt q Hq). reflexivity.
        + unfold kg_next. do 2 f_equal; [f_equal; f_equal; lia|lia].
      - unfold kg_cond. rewrite rd_wtab by apply idx. cbn [bind]. rewrite Hm. reflexivity. }
    exists (S m). destruct (kg_step_safe (S m) i (wtab N f, pos) Hst0) as [Ed|(st' & Eo & Hi')].
    - unfold kg_step in Ed. rewrite E in Ed by lia. cbn [bind] in Ed. rewrite wr_wtab in Ed by apply idx. discriminate.
    - exists st'. split; auto. intros fuel Hfu. rewrite <- Eo. unfold kg_step. rewrite !E by lia. reflexivity.
  Qed.
  Lemma kg_loop_total h : fair -> 0 <= h <= N -> forall st, kg_inv 0 st ->
    exists F st', (forall fuel, (F <= fuel)%nat -> for_ 0 h (kg_step fuel N rnd) st = Ok st') /\ kg_inv h st'.
  Proof.
    intros Hfair [Hh Hle]. revert h Hh Hle. apply (natlike_ind (fun h => h <= N -> forall st, kg_inv 0 st ->
      exists F st', (forall fuel, (F <= fuel)%nat -> for_ 0 h (kg_step fuel N rnd) st = Ok st') /\ kg_inv h st')).
    - intros _ st Hst. exists O, st. split; [|exact Hst]. intros. apply for_nil. lia.
    - intros h Hh IH Hle st Hst. destruct (IH ltac:(lia) st Hst) as (F1 & s1 & E1 & H1).
      destruct (kg_step_total h s1 Hfair H1 ltac:(lia)) as (F2 & s2 & E2 & H2).
      exists (Nat.max F1 F2), s2. split; auto. intros fuel Hfu. unfold Z.succ. rewrite (for_split _ 0 h (h + 1)) by lia.
      rewrite E1 by lia. cbn [bind]. rewrite for_step by lia. rewrite E2 by lia. cbn [bind]. apply for_nil. lia.
  Qed.
End KG.
