(** OpenMP [parallel for] over disjoint components.

    A parallel loop works on [n] shared components.  Iteration [i] is a list of atomic actions, each
    transforming component [i] only (whatever else it reads is not written by the loop).  An execution
    picks, at every point, any iteration with an action left and performs that action: all orders and all
    interleavings of the iterations are executions. *)
From Coq Require Import ZArith List Bool Lia.
From Verif Require Import Base BaseFacts.
Import ListNotations.
Open Scope Z_scope.

Section Par.
  Context {C : Type}.
  Definition action := C -> res C.

  (** The actions of one iteration, one after the other. *)
  Fixpoint seq_run (l : list action) (c : C) : res C :=
    match l with [] => Ok c | f :: t => x <- f c ;; seq_run t x end.

  Definition pool_set (pool : Z -> list action) (i : Z) (l : list action) : Z -> list action :=
    fun k => if k =? i then l else pool k.

  Inductive outcome := Running (pool : Z -> list action) (mem : list C) | Failed.

  (** One scheduling step; an action without a defined result makes the whole execution fail. *)
  Inductive pstep (n : Z) (pool : Z -> list action) (mem : list C) : outcome -> Prop :=
  | ps_ok i f rest c x mem' : 0 <= i < n -> pool i = f :: rest -> lget mem i = Ok c -> f c = Ok x ->
      lset mem i x = Ok mem' -> pstep n pool mem (Running (pool_set pool i rest) mem')
  | ps_bad i f rest : 0 <= i < n -> pool i = f :: rest ->
      (forall x, (c <- lget mem i ;; f c) <> Ok x) -> pstep n pool mem Failed.

  Inductive psteps (n : Z) (pool : Z -> list action) (mem : list C) : outcome -> Prop :=
  | pss_refl : psteps n pool mem (Running pool mem)
  | pss_last o : pstep n pool mem o -> psteps n pool mem o
  | pss_step pool' mem' o : pstep n pool mem (Running pool' mem') -> psteps n pool' mem' o -> psteps n pool mem o.

  (** Nothing left to do. *)
  Definition finished (n : Z) (pool : Z -> list action) : Prop := forall i, 0 <= i < n -> pool i = [].

  Definition inv (n : Z) (d : Z -> C) (pool : Z -> list action) (mem : list C) : Prop :=
    exists m, mem = tab n m /\ forall i, 0 <= i < n -> seq_run (pool i) (m i) = Ok (d i).

  Lemma pstep_inv n d pool mem o : inv n d pool mem -> pstep n pool mem o ->
    exists pool' mem', o = Running pool' mem' /\ inv n d pool' mem'.
  Proof.
    intros (m & -> & Hm) H. destruct H as [i f rest c x mem' Hi Ep Eg Ef Es|i f rest Hi Ep Hbad].
    - rewrite lget_tab in Eg by auto. injection Eg as <-. rewrite lset_tab in Es by auto. injection Es as <-.
      eexists _, _. split; [reflexivity|]. eexists. split; [reflexivity|]. intros k Hk. unfold pool_set.
      destruct (Z.eqb_spec k i) as [->|Hne]; auto. specialize (Hm i Hi). rewrite Ep in Hm. cbn [seq_run] in Hm.
      rewrite Ef in Hm. exact Hm.
    - exfalso. rewrite lget_tab in Hbad by auto. cbn [bind] in Hbad. specialize (Hm i Hi). rewrite Ep in Hm.
      cbn [seq_run] in Hm. destruct (f (m i)) as [x| | |] eqn:E; cbn [bind] in Hm; try discriminate.
      apply (Hbad x). auto.
  Qed.

  Theorem par_deterministic n (c d : Z -> C) pool o :
    (forall i, 0 <= i < n -> seq_run (pool i) (c i) = Ok (d i)) ->
    psteps n pool (tab n c) o ->
    exists pool' mem', o = Running pool' mem' /\ (finished n pool' -> mem' = tab n d).
  Proof.
    intros H0 H. assert (Hi : inv n d pool (tab n c)) by (exists c; auto). clear H0. revert Hi. generalize (tab n c) H.
    clear c H. intros mem H. induction H as [pool mem|pool mem o H|pool mem pool' mem' o H1 H2 IH]; intros Hi.
    - exists pool, mem. split; auto. destruct Hi as (m & -> & Hm). intros Hf. apply tab_ext. intros i Hi.
      specialize (Hm i Hi). rewrite Hf in Hm by auto. cbn in Hm. congruence.
    - destruct (pstep_inv _ _ _ _ _ Hi H) as (p & m & -> & (m' & -> & Hm)). exists p, (tab n m'). split; auto. intros Hf. apply tab_ext.
      intros i Hi'. specialize (Hm i Hi'). rewrite Hf in Hm by auto. cbn in Hm. congruence.
    - destruct (pstep_inv _ _ _ _ _ Hi H1) as (p & m & E & Hinv). injection E as <- <-. auto.
  Qed.

  (** An unfinished execution can go on. *)
  Theorem par_progress n (c d : Z -> C) pool pool' mem' :
    (forall i, 0 <= i < n -> seq_run (pool i) (c i) = Ok (d i)) ->
    psteps n pool (tab n c) (Running pool' mem') -> forall i, 0 <= i < n -> pool' i <> [] ->
    exists o, pstep n pool' mem' o.
  Proof.
    intros H0 H i Hi Hne. destruct (pool' i) as [|f rest] eqn:Ep; [congruence|].
    assert (Hinv : inv n d pool' mem').
    { assert (Hi' : inv n d pool (tab n c)) by (exists c; auto). clear H0 Ep Hne. revert Hi'. remember (Running pool' mem') as o.
      revert Heqo. generalize (tab n c) H. clear c H. intros mem H.
      induction H as [pool mem|pool mem o H|pool mem p m o H1 H2 IH]; intros Heqo Hi'.
      - injection Heqo as -> ->. auto.
      - subst o. destruct (pstep_inv _ _ _ _ _ Hi' H) as (p & m & E & Hm). injection E as -> ->. auto.
      - destruct (pstep_inv _ _ _ _ _ Hi' H1) as (p' & m' & E & Hm). injection E as <- <-. auto. }
    destruct Hinv as (m & -> & Hm). specialize (Hm i Hi). rewrite Ep in Hm. cbn [seq_run] in Hm.
    destruct (f (m i)) as [x| | |] eqn:E; cbn [bind] in Hm; try discriminate.
    eexists. eapply ps_ok; eauto.
    - apply lget_tab. auto.
    - apply lset_tab. auto.
  Qed.

  (** Executions are finite: every step uses up an action. *)
  Definition left_over (n : Z) (pool : Z -> list action) : nat :=
    fold_right Nat.add 0%nat (map (fun k => length (pool (Z.of_nat k))) (seq 0 (Z.to_nat n))).
  Lemma par_terminates n pool mem pool' mem' : pstep n pool mem (Running pool' mem') ->
    (left_over n pool' < left_over n pool)%nat.
  Proof.
    intros H. inversion H as [i f rest c x mem2 Hi Ep Eg Ef Es E1|]; subst. unfold left_over.
    assert (G : forall l, (forall k, In k l -> True) -> NoDup l ->
      let s p := fold_right Nat.add 0%nat (map (fun k => length (p (Z.of_nat k))) l) in
      (s (pool_set pool i rest) + (if in_dec Nat.eq_dec (Z.to_nat i) l then 1 else 0) = s pool)%nat).
    { induction l as [|k l IH]; intros _ Hnd; [reflexivity|]. inversion Hnd as [|? ? Hnin Hnd']; subst.
      specialize (IH (fun _ _ => I) Hnd'). cbn [map fold_right]. cbv zeta in IH |- *.
      unfold pool_set at 1. destruct (Z.eqb_spec (Z.of_nat k) i) as [<-|Hne].
      - rewrite Nat2Z.id in IH |- *. rewrite Ep. cbn [length].
        destruct (in_dec Nat.eq_dec k l); [contradiction|].
        destruct (in_dec Nat.eq_dec k (k :: l)) as [|Hn]; [|exfalso; apply Hn; left; auto]. lia.
      - destruct (in_dec Nat.eq_dec (Z.to_nat i) l), (in_dec Nat.eq_dec (Z.to_nat i) (k :: l)) as [Hc|Hc]; cbn in Hc; try lia.
        + exfalso. apply Hc. right. auto.
        + destruct Hc as [Hc|Hc]; [lia|contradiction]. }
    specialize (G (seq 0 (Z.to_nat n)) (fun _ _ => I) (seq_NoDup _ _)). cbv zeta in G.
    destruct (in_dec Nat.eq_dec (Z.to_nat i) (seq 0 (Z.to_nat n))) as [|Hn]; [lia|].
    exfalso. apply Hn. apply in_seq. lia.
  Qed.
End Par.

(** A sequential loop over independent components has the componentwise results.  [V] presents the
    components as the memory the loop works on; [P] is kept by every component. *)
Lemma loop_components {C S} n (P : C -> Prop) (V : (Z -> C) -> S) (body : Z -> S -> res S) (F : Z -> C -> res C) (c : Z -> C) s' :
  (forall i, 0 <= i < n -> P (c i)) -> (forall i x y, 0 <= i < n -> P x -> F i x = Ok y -> P y) ->
  (forall i m, 0 <= i < n -> (forall k, 0 <= k < n -> P (m k)) ->
     body i (V m) = (y <- F i (m i) ;; Ok (V (fun k => if k =? i then y else m k)))) ->
  for_ 0 n body (V c) = Ok s' ->
  exists d, s' = V d /\ (forall i, 0 <= i < n -> F i (c i) = Ok (d i)) /\ forall i, 0 <= i < n -> P (d i).
Proof.
  intros Hc HF Hb H. destruct (Z_lt_le_dec n 0) as [Hn|Hn].
  { rewrite for_nil in H by lia. injection H as <-. exists c. split; auto. split; intros; lia. }
  apply (for_inv_partial body (fun k m => exists d, m = V d /\ (forall i, 0 <= i < k -> F i (c i) = Ok (d i)) /\
           (forall i, k <= i < n -> d i = c i) /\ forall i, 0 <= i < n -> P (d i))) in H.
  - destruct H as (d & -> & H1 & _ & H3). exists d. auto.
  - lia.
  - exists c. split; auto. split; auto. intros; lia.
  - intros i m m' Hi (d & -> & H1 & H2 & H3) E. rewrite Hb in E by (auto; lia). rewrite H2 in E by lia.
    destruct (F i (c i)) as [y| | |] eqn:EF; cbn [bind] in E; try discriminate.
    injection E as <-. exists (fun k => if k =? i then y else d k). split; auto. split; [|split].
    + intros k Hk. destruct (Z.eqb_spec k i) as [->|]; auto. apply H1. lia.
    + intros k Hk. destruct (Z.eqb_spec k i); [lia|]. apply H2. lia.
    + intros k Hk. destruct (Z.eqb_spec k i) as [->|]; auto. eapply (HF i (c i)); eauto.
Qed.
