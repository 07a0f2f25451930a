(** The use of rand(): how many of its results every function takes, and that the outcome depends on no other ones. *)
From Coq Require Import ZArith List Bool Reals Lia.
From Verif Require Import Base BaseFacts ZQ ZQFacts RQ Conv Util Rot Core GSum Matrix DFT Encode LinTrans Bootstrap Poly EvalMod Pipeline.
Import ListNotations.
Open Scope Z_scope.

(** ** Specification

    [takes K run pos place]: every normal outcome of [run rnd], which starts with the result number [pos] of rand(), ends at the result number pos + k
    for a [k] with [K k], and is the outcome for every other stream that agrees with [rnd] on the numbers pos, ..., pos + k - 1. *)
Definition agree (p k : nat) (r r' : nat -> Z) : Prop := forall i, (p <= i < p + k)%nat -> r i = r' i.
Definition takes {A} (K : nat -> Prop) (run : (nat -> Z) -> res A) (pos : nat) (place : A -> nat) : Prop :=
  forall rnd a, run rnd = Ok a ->
    exists k, K k /\ place a = (pos + k)%nat /\ forall rnd', agree pos k rnd rnd' -> run rnd' = Ok a.

(** Numbers used by one encryption modulo 2^LOGQ: five for every word of the uniform polynomial and two for every coefficient of the error *)
Definition enc_draws (LOGQ N : Z) : nat := (Z.to_nat N * (5 * Z.to_nat ((LOGQ + 63) / 64) + 2))%nat.
(** Does diagonal [s] need a rotation: offset not zero, and not both parts marked as zero *)
Definition rotated (Ar Ai : sd Rops) (s : Z) : bool :=
  match nth (Z.to_nat s) (off Ar) None, nth (Z.to_nat s) (zro Ar) None, nth (Z.to_nat s) (zro Ai) None with
  | Some o, Some false, _ => negb (o =? 0)
  | Some o, Some true, Some false => negb (o =? 0)
  | _, _, _ => false
  end.
(** c lo + ... + c (lo + n - 1) *)
Fixpoint nsum (c : Z -> nat) (lo : Z) (n : nat) : nat := match n with O => 0%nat | S n' => (c lo + nsum c (lo + 1)%Z n')%nat end.
Definition rotations (Ar Ai : sd Rops) (S : Z) : nat := nsum (fun s => if rotated Ar Ai s then 1%nat else 0%nat) 0 (Z.to_nat S).
(** Numbers used by the keys of EvalMod: one encryption modulo 2^(2(LOGQ - i LOGDELTA)) for i = 1, ..., 11 *)
Definition evalmod_draws (LOGQ N LOGDELTA : Z) : nat := nsum (fun i => enc_draws (2 * (LOGQ - i * LOGDELTA)) N) 1 11.

(** ** Rules *)
Lemma takes_weaken {A} (K K' : nat -> Prop) (run : _ -> res A) pos place : takes K run pos place -> (forall k, K k -> K' k) -> takes K' run pos place.
Proof. intros H HK rnd a E. destruct (H rnd a E) as (k & Hk & P & L). exists k. auto. Qed.
Lemma takes_ret {A} (a : A) pos place : place a = pos -> takes (eq 0%nat) (fun _ => Ok a) pos place.
Proof. intros H rnd b E. injection E as <-. exists 0%nat. repeat split; auto; lia. Qed.
Lemma takes_pure {A B} K (e : res A) (f : (nat -> Z) -> A -> res B) pos place :
  (forall a, e = Ok a -> takes K (fun rnd => f rnd a) pos place) -> takes K (fun rnd => bind e (f rnd)) pos place.
Proof. intros H rnd b E. destruct e as [a| | |]; try discriminate. cbn [bind] in *. apply (H a eq_refl rnd b E). Qed.
Lemma takes_seq {A B} K1 K2 (e : (nat -> Z) -> res A) (f : (nat -> Z) -> A -> res B) pos p1 place :
  takes K1 e pos p1 -> (forall a, takes K2 (fun rnd => f rnd a) (p1 a) place) ->
  takes (fun k => exists k1 k2, K1 k1 /\ K2 k2 /\ k = (k1 + k2)%nat) (fun rnd => bind (e rnd) (f rnd)) pos place.
Proof.
  intros H1 H2 rnd b E. destruct (e rnd) as [a| | |] eqn:Ea; try discriminate. cbn [bind] in E.
  destruct (H1 rnd a Ea) as (k1 & Hk1 & P1 & L1). destruct (H2 a rnd b E) as (k2 & Hk2 & P2 & L2).
  exists (k1 + k2)%nat. split; [exists k1, k2; auto|]. split; [lia|]. intros rnd' Hr.
  rewrite (L1 rnd'). 2:{ intros i Hi. apply Hr. lia. }
  cbn [bind]. apply L2. intros i Hi. apply Hr. lia.
Qed.
Lemma takes_bind {A B} k1 k2 (e : (nat -> Z) -> res A) (f : (nat -> Z) -> A -> res B) pos p1 place :
  takes (eq k1) e pos p1 -> (forall a, takes (eq k2) (fun rnd => f rnd a) (p1 a) place) ->
  takes (eq (k1 + k2)%nat) (fun rnd => bind (e rnd) (f rnd)) pos place.
Proof. intros H1 H2. eapply takes_weaken; [apply (takes_seq _ _ _ _ _ _ _ H1 H2)|]. intros k (a & b & <- & <- & ->). reflexivity. Qed.
Lemma takes_last {A B} k (e : (nat -> Z) -> res A) (f : (nat -> Z) -> A -> res B) pos p1 place :
  takes (eq k) e pos p1 -> (forall a, takes (eq 0%nat) (fun rnd => f rnd a) (p1 a) place) -> takes (eq k) (fun rnd => bind (e rnd) (f rnd)) pos place.
Proof. intros H1 H2. eapply takes_weaken; [apply (takes_bind _ _ _ _ _ _ _ H1 H2)|]. intros. lia. Qed.
Lemma takes_iter {A} (c : Z -> nat) (body : (nat -> Z) -> Z -> A -> res A) (place : A -> nat) n : forall lo s pos, place s = pos ->
  (forall i a, lo <= i < lo + Z.of_nat n -> takes (eq (c i)) (fun rnd => body rnd i a) (place a) place) ->
  takes (eq (nsum c lo n)) (fun rnd => iter_up n lo (body rnd) s) pos place.
Proof.
  induction n; intros lo s pos Ep H.
  - apply takes_ret; auto.
  - cbn [iter_up nsum]. apply takes_bind with (p1 := place); [rewrite <- Ep; apply H; lia|].
    intros a. apply IHn; auto. intros. apply H. lia.
Qed.
Lemma takes_for {A} (c : Z -> nat) (body : (nat -> Z) -> Z -> A -> res A) (place : A -> nat) lo hi s pos : place s = pos ->
  (forall i a, lo <= i < hi -> takes (eq (c i)) (fun rnd => body rnd i a) (place a) place) ->
  takes (eq (nsum c lo (Z.to_nat (hi - lo)))) (fun rnd => for_ lo hi (body rnd) s) pos place.
Proof. intros Ep H. unfold for_. apply takes_iter; auto. intros i a Hi. apply H. lia. Qed.
Lemma nsum_const k lo n : nsum (fun _ => k) lo n = (n * k)%nat.
Proof. revert lo. induction n; intros; cbn [nsum]; [reflexivity|]. rewrite IHn. lia. Qed.
Lemma nsum_ext c c' n : forall lo, (forall i, lo <= i < lo + Z.of_nat n -> c i = c' i) -> nsum c lo n = nsum c' lo n.
Proof. induction n; intros lo H; cbn [nsum]; [reflexivity|]. rewrite H by lia. rewrite (IHn (lo + 1)); [reflexivity|]. intros; apply H; lia. Qed.
Lemma nsum_mul c k lo n : nsum (fun i => (c i * k)%nat) lo n = (nsum c lo n * k)%nat.
Proof. revert lo. induction n; intros; cbn [nsum]; [reflexivity|]. rewrite IHn. lia. Qed.
Lemma nsum_le c b lo n : (forall i, (c i <= b)%nat) -> (nsum c lo n <= n * b)%nat.
Proof. intros H. revert lo. induction n; intros; cbn [nsum]; [lia|]. specialize (IHn (lo + 1)). specialize (H lo). lia. Qed.

(** ** Encryption and key switching keys *)
(** For comparison [takes] with a smaller count would be false: the outcome depends on the numbers. *)
Theorem C80_enc LOGQ N RM pt s ct pos : 1 <= LOGQ -> takes (eq (enc_draws LOGQ N)) (fun rnd => enc LOGQ N RM rnd pt s ct pos) pos snd.
Proof.
  intros HQ. unfold enc, enc_draws. rewrite <- len_div by lia.
  replace (Z.to_nat N * (5 * Z.to_nat (len LOGQ) + 2))%nat with (Z.to_nat N * (Z.to_nat (len LOGQ) * 5) + Z.to_nat N * 2)%nat by lia.
  apply takes_bind with (p1 := snd).
  - unfold enc_uniform. rewrite <- (nsum_const _ 0). replace (Z.to_nat N) with (Z.to_nat (N - 0)) by lia.
    apply takes_for; [reflexivity|]. intros i [A p] Hi. cbn [snd].
    apply takes_pure. intros x _. apply takes_last with (p1 := snd).
    + rewrite <- (nsum_const _ 0). replace (Z.to_nat (len LOGQ)) with (Z.to_nat (len LOGQ - 0)) by lia.
      apply takes_for; [reflexivity|]. intros j [y p'] Hj. cbn [snd].
      intros rnd [b q] E. unfold rand_uint64 in E. exists 5%nat. split; [reflexivity|].
      match type of E with context [wr y j ?v] => destruct (wr y j v) as [y'| | |] eqn:Ew; try discriminate end.
      cbn [bind] in E. injection E as <- <-. split; [reflexivity|]. intros rnd' Hr. unfold rand_uint64.
      cbn [fold_left] in *. rewrite <- !Hr by lia. rewrite Ew. reflexivity.
    + intros [y p']. cbn [snd]. apply takes_pure. intros y' _. apply takes_pure. intros A' _. apply takes_ret. reflexivity.
  - intros [A p]. cbn [snd]. apply takes_last with (p1 := snd).
    + unfold enc_error. rewrite <- (nsum_const _ 0). replace (Z.to_nat N) with (Z.to_nat (N - 0)) by lia.
      apply takes_for; [reflexivity|]. intros i [e p'] Hi. cbn [snd].
      apply takes_pure. intros x _. apply takes_pure. intros y _.
      intros rnd [b q] E. exists 2%nat. split; [reflexivity|].
      assert (forall rnd', agree p' 2 rnd rnd' -> rnd' p' = rnd p' /\ rnd' (S p') = rnd (S p')) as Hag by (intros rnd' Hr; split; symmetry; apply Hr; lia).
      destruct (wr y 0 (Z.rem (rnd p') 9)) as [z| | |] eqn:Ew; try discriminate. cbn [bind] in E.
      split.
      * destruct (if Z.rem (rnd (S p')) 2 =? 1 then _ else _) as [z'| | |]; try discriminate. cbn [bind] in E.
        destruct (lset e i z') as [e'| | |]; try discriminate. cbn [bind] in E. injection E as <- <-. cbn [snd]. lia.
      * intros rnd' Hr. destruct (Hag rnd' Hr) as [-> ->]. rewrite Ew. exact E.
    + intros [e p']. cbn [snd]. repeat (apply takes_pure; intros ? _). apply takes_ret. reflexivity.
Qed.

Theorem C80_swkgen LOGQ N RM s_fr s_to swk pos : 1 <= LOGQ ->
  takes (eq (enc_draws (2 * LOGQ) N)) (fun rnd => swkgen LOGQ N RM rnd s_fr s_to swk pos) pos snd.
Proof. intros HQ. unfold swkgen. repeat (apply takes_pure; intros ? _). apply C80_enc. lia. Qed.

(** ** Linear transforms *)
Lemma grd_nth {F} (l : list (option F)) i x : grd l i = Ok x -> nth (Z.to_nat i) l None = Some x.
Proof.
  unfold grd, lget. destruct (0 <=? i); [|discriminate]. destruct (nth_error l (Z.to_nat i)) as [c|] eqn:E; [|discriminate].
  cbn [bind]. rewrite (nth_error_nth _ _ _ E). destruct c; [|discriminate]. intros H. injection H as <-. reflexivity.
Qed.
Theorem C80_linear_transform LOGQ LOGN LOGDELTA RM S st pos Ar Ai ct skey Act : 1 <= LOGQ ->
  takes (eq (rotations Ar Ai S * enc_draws (2 * LOGQ) (2 ^ LOGN))%nat)
        (fun rnd => linear_transform LOGQ LOGN LOGDELTA RM rnd S st pos Ar Ai ct skey Act) pos (fun r => snd (fst r)).
Proof.
  intros HQ. unfold linear_transform. apply takes_pure. intros Act' _. unfold rotations. rewrite <- nsum_mul.
  replace (Z.to_nat S) with (Z.to_nat (S - 0)) by lia. apply takes_for; [reflexivity|]. intros s [[st' p] A] Hs. cbn [fst snd]. unfold lt_step.
  apply takes_pure. intros o Eo. apply takes_pure. intros o' _. apply takes_pure. intros u _. apply takes_pure. intros zr Ezr.
  apply takes_pure. intros skip Esk. apply grd_nth in Eo. apply grd_nth in Ezr. unfold rotated. rewrite Eo, Ezr.
  destruct skip.
  - destruct zr; [|discriminate]. apply grd_nth in Esk. rewrite Esk. apply takes_ret. reflexivity.
  - apply takes_weaken with (K := eq ((if negb (o =? 0)%Z then 1 else 0) * enc_draws (2 * LOGQ) (2 ^ LOGN))%nat).
    2:{ intros k <-. destruct zr; [apply grd_nth in Esk; rewrite Esk|]; destruct (o =? 0); reflexivity. }
    apply takes_pure. intros vr _. apply takes_pure. intros vi _. apply takes_pure. intros D _.
    apply takes_pure. intros [st2 pt] _. apply takes_pure. intros cr _.
    apply takes_last with (p1 := fst).
    + destruct (o =? 0); cbn [negb]; [rewrite Nat.mul_0_l; apply takes_ret; reflexivity|]. rewrite Nat.mul_1_l.
      apply takes_pure. intros sr _. apply takes_last with (p1 := snd); [apply C80_swkgen; auto|].
      intros [rk p2]. cbn [snd]. apply takes_pure. intros ? _. apply takes_ret. reflexivity.
    + intros [p2 c2]. cbn [fst]. apply takes_pure. intros ? _. apply takes_pure. intros ? _. apply takes_ret. reflexivity.
Qed.
Lemma rotations_le Ar Ai S : (rotations Ar Ai S <= Z.to_nat S)%nat.
Proof. unfold rotations. etransitivity; [apply nsum_le with (b := 1%nat)|lia]. intros i. destruct (rotated Ar Ai i); lia. Qed.

(** Between 0 and [b] encryptions modulo 2^(2 LOGQ) *)
Definition up_to (b : nat) (d : nat) (k : nat) : Prop := exists j, (j <= b)%nat /\ k = (j * d)%nat.
Theorem C80_serial LOGQ LOGN LOGDELTA RM S D st pos Ar Ai ct skey Act : 1 <= LOGQ ->
  takes (eq (nsum (fun d => rotations (nth (Z.to_nat d) Ar (sd_new Rops 0 0)) (nth (Z.to_nat d) Ai (sd_new Rops 0 0)) S) 0 (Z.to_nat D) * enc_draws (2 * LOGQ) (2 ^ LOGN))%nat)
        (fun rnd => serial_lt LOGQ LOGN LOGDELTA RM rnd S D st pos Ar Ai ct skey Act) pos (fun r => snd (fst r)).
Proof.
  intros HQ. unfold serial_lt. apply takes_pure. intros A' _. apply takes_last with (p1 := fun r => snd (fst (fst r))).
  - rewrite <- nsum_mul. replace (Z.to_nat D) with (Z.to_nat (D - 0)) by lia. apply takes_for; [reflexivity|].
    intros d [[[st' p] A] T] Hd. cbn [fst snd]. apply takes_pure. intros c _. apply takes_pure. intros a Ea. apply takes_pure. intros b Eb.
    assert (Hn : forall (l : list (sd Rops)) x, lget l d = Ok x -> nth (Z.to_nat d) l (sd_new Rops 0 0) = x).
    { intros l x. unfold lget. destruct (0 <=? d); [|discriminate]. destruct (nth_error l (Z.to_nat d)) eqn:E; [|discriminate].
      intros H. injection H as <-. apply nth_error_nth. auto. }
    rewrite (Hn _ _ Ea), (Hn _ _ Eb). apply takes_last with (p1 := fun r => snd (fst r)); [apply C80_linear_transform; auto|].
    intros [[st2 p2] A2]. cbn [fst snd]. apply takes_ret. reflexivity.
  - intros [[[st' p] A] T]. cbn [fst snd]. apply takes_ret. reflexivity.
Qed.
Lemma serial_le LOGQ LOGN LOGDELTA RM S D st pos Ar Ai ct skey Act : 1 <= LOGQ ->
  takes (up_to (Z.to_nat D * Z.to_nat S) (enc_draws (2 * LOGQ) (2 ^ LOGN)))
        (fun rnd => serial_lt LOGQ LOGN LOGDELTA RM rnd S D st pos Ar Ai ct skey Act) pos (fun r => snd (fst r)).
Proof.
  intros HQ. eapply takes_weaken; [apply C80_serial; auto|]. intros k <-. eexists. split; [|reflexivity].
  apply nsum_le. intros d. apply rotations_le.
Qed.
(** For G = 1, 2, 3, 4 groups of G matrices with three diagonals are multiplied. *)
Definition lt_draws (G D : Z) : nat := (Z.to_nat (D / G) * Z.to_nat (3 ^ G))%nat.
Theorem C80_grouped LOGQ LOGN LOGDELTA RM D G st pos Ar Ai ct skey Act : 1 <= LOGQ ->
  takes (up_to (lt_draws G D) (enc_draws (2 * LOGQ) (2 ^ LOGN)))
        (fun rnd => grouped_lt LOGQ LOGN LOGDELTA RM rnd 3 D G st pos Ar Ai ct skey Act) pos (fun r => snd (fst r)).
Proof.
  intros HQ. unfold grouped_lt, lt_draws.
  destruct (Z.eqb_spec G 1) as [->|]; [rewrite Z.div_1_r; apply serial_le; auto|].
  destruct (Z.eqb_spec G 2) as [->|]; [apply takes_pure; intros [Br Bi] _; apply serial_le; auto|].
  destruct (Z.eqb_spec G 3) as [->|]; [apply takes_pure; intros [Br Bi] _; apply serial_le; auto|].
  destruct (Z.eqb_spec G 4) as [->|]; [apply takes_pure; intros [Br Bi] _; apply serial_le; auto|].
  intros rnd a E. discriminate.
Qed.

(** ** The parts of the bootstrapping *)
Lemma up_to_add a b c d k : up_to a d k -> up_to b d c -> up_to (a + b) d (k + c).
Proof. intros (j & Hj & ->) (i & Hi & ->). exists (j + i)%nat. split; lia. Qed.
Theorem C80_CoeffToSlot LOGQ LOGN LOGDELTA RM G stc st pos ct s ct0 ct1 : 1 <= LOGQ ->
  takes (fun k => exists j, (1 <= j <= lt_draws G (LOGN - 1) + 1)%nat /\ k = (j * enc_draws (2 * LOGQ) (2 ^ LOGN))%nat)
        (fun rnd => CoeffToSlot LOGQ LOGN LOGDELTA RM rnd G stc st pos ct s ct0 ct1) pos (fun r => snd (fst (fst r))).
Proof.
  intros HQ. unfold CoeffToSlot. apply takes_pure. intros [U0r U0i] _.
  eapply takes_weaken; [apply takes_seq with (p1 := fun r => snd (fst r)) (K2 := eq (enc_draws (2 * LOGQ) (2 ^ LOGN))); [apply C80_grouped; auto|]|].
  - intros [[st' p] c]. cbn [fst snd]. apply takes_pure. intros sc _. apply takes_last with (p1 := snd); [apply C80_swkgen; auto|].
    intros [ck p2]. cbn [snd]. repeat (apply takes_pure; intros ? _). apply takes_ret. reflexivity.
  - intros k (k1 & k2 & (j & Hj & ->) & <- & ->). exists (j + 1)%nat. split; lia.
Qed.
Theorem C80_SlotToCoeff LOGQ LOGN LOGDELTA RM G sts st pos ct0 ct1 s ct_ : 1 <= LOGQ ->
  takes (up_to (2 * lt_draws G (LOGN - 1)) (enc_draws (2 * LOGQ) (2 ^ LOGN)))
        (fun rnd => SlotToCoeff LOGQ LOGN LOGDELTA RM rnd G sts st pos ct0 ct1 s ct_) pos (fun r => snd (fst r)).
Proof.
  intros HQ. unfold SlotToCoeff. apply takes_pure. intros [[[U0r U0i] iU0r] iU0i] _.
  eapply takes_weaken; [apply takes_seq with (p1 := fun r => snd (fst r)) (K2 := up_to (lt_draws G (LOGN - 1)) (enc_draws (2 * LOGQ) (2 ^ LOGN))); [apply C80_grouped; auto|]|].
  - intros [[st' p] c]. cbn [fst snd].
    eapply takes_weaken; [apply takes_seq with (p1 := fun r => snd (fst r)) (K2 := eq 0%nat); [apply C80_grouped; auto|]|].
    + intros [[st2 p2] c2]. cbn [fst snd]. repeat (apply takes_pure; intros ? _). apply takes_ret. reflexivity.
    + intros k (k1 & k2 & H & <- & ->). rewrite Nat.add_0_r. exact H.
  - intros k (k1 & k2 & H1 & H2 & ->). replace (2 * lt_draws G (LOGN - 1))%nat with (lt_draws G (LOGN - 1) + lt_draws G (LOGN - 1))%nat by lia.
    apply up_to_add; auto.
Qed.
Theorem C80_EvalMod LOGQ N LOGDELTA K RM pos ct s p : 1 <= LOGQ - 11 * LOGDELTA -> 0 <= LOGDELTA ->
  takes (eq (evalmod_draws LOGQ N LOGDELTA)) (fun rnd => EvalMod LOGQ N LOGDELTA K RM rnd pos ct s p) pos fst.
Proof.
  intros HQ HD. unfold EvalMod, evalmod_draws. cbn [nsum]. apply takes_pure. intros ssq _. cbv zeta. unfold em_key.
  do 11 (match goal with |- takes (eq (?a + ?b)%nat) _ _ _ => apply takes_bind with (p1 := snd); [apply C80_swkgen; lia|intros [? ?]; cbn [snd]] end).
  apply takes_pure. intros ? _. apply takes_ret. reflexivity.
Qed.

(** ** The two bootstrapping procedures *)
Section Boot.
Context (LOGq LOGQ LOGN LDc LDb LDs G K RM : Z).
Let N := 2 ^ LOGN.
Let Qc := LOGQ - (LOGN - 1) / G * LDc.
Let Qm := Qc - 12 * LDb.
(** keys modulo 2^(2 LOGQ) of CoeffToSlot, those of the two calls of EvalMod, and keys modulo 2^(2 Qm) of SlotToCoeff *)
Definition boot_draws (k : nat) : Prop := exists a b, (1 <= a <= lt_draws G (LOGN - 1) + 1)%nat /\ (b <= 2 * lt_draws G (LOGN - 1))%nat /\
  k = (a * enc_draws (2 * LOGQ) N + 2 * evalmod_draws Qc N LDb + b * enc_draws (2 * Qm) N)%nat.
Hypothesis (HD : 0 <= LDb) (HQ : 1 <= LOGQ) (HQm : 1 <= Qm).
Lemma front_takes stc st pos ct s :
  takes (fun k => exists a, (1 <= a <= lt_draws G (LOGN - 1) + 1)%nat /\ k = (a * enc_draws (2 * LOGQ) N + 2 * evalmod_draws Qc N LDb)%nat)
    (fun rnd => boot_front LOGQ LOGN LDc LDb G K RM rnd stc st pos ct s) pos (fun r => snd (fst (fst r))).
Proof.
  unfold boot_front. cbv zeta.
  eapply takes_weaken; [apply takes_seq with (p1 := fun r => snd (fst (fst r))) (K2 := eq (2 * evalmod_draws Qc N LDb)%nat); [apply C80_CoeffToSlot; auto|]|].
  - intros [[[[stc' st'] p] c0] c1]. cbn [fst snd]. apply takes_pure. intros r0 _. apply takes_pure. intros r1 _.
    replace (2 * evalmod_draws Qc N LDb)%nat with (evalmod_draws Qc N LDb + evalmod_draws Qc N LDb)%nat by lia.
    apply takes_bind with (p1 := fst); [apply C80_EvalMod; unfold LOGQ_after_cts; fold Qc; lia|].
    intros [p1 e0]. cbn [fst]. apply takes_last with (p1 := fst); [apply C80_EvalMod; unfold LOGQ_after_cts; fold Qc; lia|].
    intros [p2 e1]. cbn [fst]. apply takes_ret. reflexivity.
  - intros k (k1 & k2 & (j & Hj & ->) & <- & ->). exists j. split; [lia|reflexivity].
Qed.
Lemma back_takes sts st pos c0 c1 s :
  takes (up_to (2 * lt_draws G (LOGN - 1)) (enc_draws (2 * Qm) N))
    (fun rnd => boot_back LOGQ LOGN LDc LDb LDs G RM rnd sts st pos c0 c1 s) pos (fun r => snd (fst r)).
Proof.
  unfold boot_back. cbv zeta. eapply takes_weaken; [apply takes_seq with (p1 := fun r => snd (fst r)) (K2 := eq 0%nat); [apply C80_SlotToCoeff; exact HQm|]|].
  - intros [[[sts' st'] p] c]. cbn [fst snd]. apply takes_pure. intros ? _. apply takes_ret. reflexivity.
  - intros k (k1 & k2 & H & <- & ->). rewrite Nat.add_0_r. exact H.
Qed.
Theorem C80_conventional stc sts st pos ct s :
  takes boot_draws (fun rnd => conventional_boot LOGq LOGQ LOGN LDc LDb LDs G K RM rnd stc sts st pos ct s) pos (fun r => snd (fst r)).
Proof.
  unfold conventional_boot. cbv zeta. apply takes_pure. intros m _.
  eapply takes_weaken; [apply takes_seq with (p1 := fun r => snd (fst (fst r))) (K2 := up_to (2 * lt_draws G (LOGN - 1)) (enc_draws (2 * Qm) N)); [apply front_takes|]|].
  - intros [[[[stc' st'] p] r] e]. cbn [fst snd].
    eapply takes_weaken; [apply takes_seq with (p1 := fun r => snd (fst r)) (K2 := eq 0%nat); [apply back_takes|]|].
    + intros [[[sts' st2] p2] c]. cbn [fst snd]. apply takes_ret. reflexivity.
    + intros k (k1 & k2 & H & <- & ->). rewrite Nat.add_0_r. exact H.
  - intros k (k1 & k2 & (a & Ha & ->) & (b & Hb & ->) & ->). exists a, b. auto.
Qed.
Theorem C80_proposed stc sts st pos ct s :
  takes boot_draws (fun rnd => proposed_boot LOGq LOGQ LOGN LDc LDb LDs G K RM rnd stc sts st pos ct s) pos (fun r => snd (fst r)).
Proof.
  unfold proposed_boot. cbv zeta. apply takes_pure. intros m _.
  eapply takes_weaken; [apply takes_seq with (p1 := fun r => snd (fst (fst r))) (K2 := up_to (2 * lt_draws G (LOGN - 1)) (enc_draws (2 * Qm) N)); [apply front_takes|]|].
  - intros [[[[stc' st'] p] r] e]. cbn [fst snd]. apply takes_pure. intros q0 _. apply takes_pure. intros q1 _.
    eapply takes_weaken; [apply takes_seq with (p1 := fun r => snd (fst r)) (K2 := eq 0%nat); [apply back_takes|]|].
    + intros [[[sts' st2] p2] c]. cbn [fst snd]. repeat (apply takes_pure; intros ? _). apply takes_ret. reflexivity.
    + intros k (k1 & k2 & H & <- & ->). rewrite Nat.add_0_r. exact H.
  - intros k (k1 & k2 & (a & Ha & ->) & (b & Hb & ->) & ->). exists a, b. auto.
Qed.
End Boot.

(** Two encryptions modulo X^2+1 and 2^10, the second after the first, with the stream 1, 2, 3, ...: fourteen numbers each, and the ciphertexts differ. *)
Example C80_case :
  let run pos := enc 10 2 2147483647 (fun k => Z.of_nat k + 1) [[Some 5]; [Some 7]] [Some (-1); Some 1] (sq_new 10 2) pos in
  enc_draws 10 2 = 14%nat /\
  (exists c1 c2, run 0%nat = Ok (c1, 14%nat) /\ run 14%nat = Ok (c2, 28%nat) /\ c1 <> c2).
Proof. cbv zeta. split; [reflexivity|]. eexists _, _. repeat split; try (vm_compute; reflexivity). vm_compute. discriminate. Qed.
(** The numbers taken matter: with another third number the outcome is another one. *)
Example C80_case_dependence :
  let run rnd := enc 10 2 2147483647 rnd [[Some 5]; [Some 7]] [Some (-1); Some 1] (sq_new 10 2) 0 in
  run (fun k => Z.of_nat k + 1) <> run (fun k => if (k =? 4)%nat then 0 else Z.of_nat k + 1).
Proof. cbv zeta. vm_compute. discriminate. Qed.
(** A transform with offsets 0, 1, 2, the last one marked as zero in both parts: one rotation *)
Example C80_case_rotations : forall v, let A := mksd v [Some 0; Some 1; Some 2] [Some false; Some false; Some true] in rotations A A 3 = 1%nat.
Proof. reflexivity. Qed.
(** The modulus of experiment/rns.h after CoeffToSlot with LOGDELTA_cts = 40: the keys of EvalMod take 1647 numbers per coefficient. *)
Example C80_case_evalmod : evalmod_draws (1450 - 4 * 40) 1 60 = (1600 + 47)%nat.
Proof. reflexivity. Qed.
Print Assumptions C80_enc.
Print Assumptions C80_conventional.
Print Assumptions C80_proposed.
