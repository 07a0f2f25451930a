(** C53: programs with function-static tables. *)
From Coq Require Import ZArith List Bool Lia Reals.
From Verif Require Import Base BaseFacts Sums ZQ ZQFacts RQ RQFacts Conv Rot Core CoreFacts Util UtilFacts GSum Matrix MatrixFacts MatMulFacts DFT DFTTheory DFTFacts FFTFacts
  SpecZQ SpecPoly SpecPolyFacts SpecScheme SpecMat Properties_Mat SpecDFT Properties_DFT SpecEnc SlotFacts
  Encode EncodeFacts Properties_Conv Properties_Core Properties_Rot Properties_Enc Properties_Plain SpecLin LinTrans LinTransFacts LinSlots Properties_Lin GroupFacts GroupSlots Bootstrap BootFacts SpecBoot BootSlots BootSlots SpecStatic Properties_Boot.
Import ListNotations.
Open Scope Z_scope.

(** equal up to a relation on the results *)
Definition rres {A B} (R : A -> B -> Prop) (x : res A) (y : res B) : Prop :=
  match x, y with Ok a, Ok b => R a b | Undef, Undef => True | Abort, Abort => True | Diverge, Diverge => True | _, _ => False end.
Lemma rres_bind {A B C D} (R : A -> B -> Prop) (T : C -> D -> Prop) x y f g : rres R x y -> (forall a b, R a b -> rres T (f a) (g b)) -> rres T (bind x f) (bind y g).
Proof. destruct x, y; cbn; intros H1 H2; try contradiction; auto. Qed.
Lemma rres_same {A C D} (T : C -> D -> Prop) (x : res A) f g : (forall a, x = Ok a -> rres T (f a) (g a)) -> rres T (bind x f) (bind x g).
Proof. destruct x; cbn; auto. Qed.
Lemma rres_for {S T} (R : S -> T -> Prop) lo hi b1 b2 s t : R s t -> (forall i s t, R s t -> rres R (b1 i s) (b2 i t)) -> rres R (for_ lo hi b1 s) (for_ lo hi b2 t).
Proof.
  intros H Hb. unfold for_. generalize (Z.to_nat (hi - lo)) as k. intros k. revert lo s t H. induction k as [|k IH]; intros lo' s t H; cbn [iter_up]; [exact H|].
  specialize (Hb lo' s t H). destruct (b1 lo' s), (b2 lo' t); cbn in *; try contradiction; auto.
Qed.

Section LogN.
Context (LOGN : Z) (HL : 2 <= LOGN <= 27).
Let fs := fwd_state LOGN. Let bs := bwd_state LOGN.

Lemma fwd_next st m zr zi st' out : fs st -> fftNR LOGN st m zr zi = Ok (st', out) -> fs st'.
Proof.
  intros H E. unfold fftNR in E.
  assert (E0 : match st with Some t => Ok t | None => splitU0NR LOGN (fst (new_tables LOGN)) (snd (new_tables LOGN)) end = Ok (fwd_tables LOGN))
    by (destruct H as [->| ->]; [apply splitU0NR_ok; auto|reflexivity]).
  rewrite E0 in E. cbn [bind] in E. destruct (fwd_tables LOGN) as [Tr Ti] eqn:ET. cbn [bind] in E.
  repeat match type of E with
    | bind ?x _ = _ => let v := fresh "v" in destruct x as [v| | |]; cbn [bind] in E; try discriminate E
    | (let (_, _) := ?v in _) = _ => destruct v
    end. inversion E. right. rewrite ET. reflexivity.
Qed.
Lemma bwd_next st m zr zi st' out : bs st -> ifftNR LOGN st zr zi m = Ok (st', out) -> bs st'.
Proof.
  intros H E. unfold ifftNR in E.
  assert (E0 : match st with Some t => Ok t | None => inv_tables LOGN end = Ok (bwd_tables LOGN))
    by (destruct H as [->| ->]; [apply inv_tables_ok; auto|reflexivity]).
  rewrite E0 in E. cbn [bind] in E. destruct (bwd_tables LOGN) as [Tr Ti] eqn:ET. cbn [bind] in E.
  repeat match type of E with
    | bind ?x _ = _ => let v := fresh "v" in destruct x as [v| | |]; cbn [bind] in E; try discriminate E
    | (let (_, _) := ?v in _) = _ => destruct v
    end. inversion E. right. rewrite ET. reflexivity.
Qed.

(** same result, tables that earlier calls may have left *)
Definition eqf {A} (x y : tables * A) : Prop := fs (fst x) /\ fs (fst y) /\ snd x = snd y.
Definition eqb_ {A} (x y : tables * A) : Prop := bs (fst x) /\ bs (fst y) /\ snd x = snd y.
Lemma fftNR_rel st st' m zr zi : fs st -> fs st' -> rres eqf (fftNR LOGN st m zr zi) (fftNR LOGN st' m zr zi).
Proof.
  intros H H'. rewrite (fftNR_static LOGN HL st' m zr zi H'), <- (fftNR_static LOGN HL st m zr zi H).
  destruct (fftNR LOGN st m zr zi) as [[t o]| | |] eqn:E; cbn; auto. pose proof (fwd_next _ _ _ _ _ _ H E). split; auto.
Qed.
Lemma ifftNR_rel st st' zr zi m : bs st -> bs st' -> rres eqb_ (ifftNR LOGN st zr zi m) (ifftNR LOGN st' zr zi m).
Proof.
  intros H H'. rewrite (ifftNR_static LOGN HL st' zr zi m H'), <- (ifftNR_static LOGN HL st zr zi m H).
  destruct (ifftNR LOGN st zr zi m) as [[t o]| | |] eqn:E; cbn; auto. pose proof (bwd_next _ _ _ _ _ _ H E). split; auto.
Qed.
Lemma fft_rel st st' m zr zi : fs st -> fs st' -> rres eqf (fft LOGN st m zr zi) (fft LOGN st' m zr zi).
Proof. intros H H'. unfold fft. apply rres_same. intros a _. apply fftNR_rel; auto. Qed.
Lemma ifft_rel st st' zr zi m : bs st -> bs st' -> rres eqb_ (ifft LOGN st zr zi m) (ifft LOGN st' zr zi m).
Proof.
  intros H H'. unfold ifft. eapply rres_bind; [apply ifftNR_rel; auto|]. intros [t a] [t' a'] (H1 & H2 & H3). cbn in H1, H2, H3. subst a'.
  apply rres_same. intros b _. cbn. split; auto.
Qed.
Lemma encode_rel Q st st' zr zi Delta pt : bs st -> bs st' -> rres eqb_ (encode Q LOGN st zr zi Delta pt) (encode Q LOGN st' zr zi Delta pt).
Proof.
  intros H H'. unfold encode. eapply rres_bind; [apply ifft_rel; auto|]. intros [t a] [t' a'] (H1 & H2 & H3). cbn in H1, H2, H3. subst a'.
  apply rres_same. intros b _. cbn. split; auto.
Qed.
Lemma decode_rel Q st st' zr zi Delta pt : fs st -> fs st' -> rres eqf (decode Q LOGN st pt Delta zr zi) (decode Q LOGN st' pt Delta zr zi).
Proof. intros H H'. unfold decode. apply rres_same. intros a _. apply fft_rel; auto. Qed.
Lemma decode_log_rel Q st st' zr zi LD pt : fs st -> fs st' -> rres eqf (decode_log Q LOGN st pt LD zr zi) (decode_log Q LOGN st' pt LD zr zi).
Proof. intros H H'. unfold decode_log. apply rres_same. intros a _. apply fft_rel; auto. Qed.

Definition eq3 {A} (x y : tables * nat * A) : Prop := bs (fst (fst x)) /\ bs (fst (fst y)) /\ snd (fst x) = snd (fst y) /\ snd x = snd y.
Ltac same := apply rres_same; intros ? _.
Lemma lt_step_rel Q LD RM rnd Ar Ai ct sk i w w' : eq3 w w' -> rres eq3 (lt_step Q LOGN LD RM rnd Ar Ai ct sk i w) (lt_step Q LOGN LD RM rnd Ar Ai ct sk i w').
Proof.
  destruct w as [[t p] c], w' as [[t' p'] c']. intros (H1 & H2 & H3 & H4). cbn in H1, H2, H3, H4. subst p' c'. unfold lt_step.
  do 5 same. destruct a3; [repeat split; auto|]. do 3 same.
  eapply rres_bind; [apply encode_rel; auto|]. intros [t1 a6] [t2 a7] (H3 & H4 & H5). cbn in H3, H4, H5. subst a7.
  same. apply rres_same. intros [p' c'] _. do 2 same. repeat split; auto.
Qed.
Lemma linear_rel Q LD RM rnd S st st' pos Ar Ai ct sk Act : bs st -> bs st' ->
  rres eq3 (linear_transform Q LOGN LD RM rnd S st pos Ar Ai ct sk Act) (linear_transform Q LOGN LD RM rnd S st' pos Ar Ai ct sk Act).
Proof.
  intros H H'. unfold linear_transform. apply rres_same. intros a _. apply rres_for; [repeat split; auto|]. intros i w w' Hw. apply lt_step_rel; auto.
Qed.
Lemma serial_rel Q LD RM rnd S D st st' pos Ar Ai ct sk Act : bs st -> bs st' ->
  rres eq3 (serial_lt Q LOGN LD RM rnd S D st pos Ar Ai ct sk Act) (serial_lt Q LOGN LD RM rnd S D st' pos Ar Ai ct sk Act).
Proof.
  intros H H'. unfold serial_lt. same.
  apply (rres_bind (fun x y => eq3 (fst x) (fst y) /\ snd x = snd y)).
  - apply rres_for; [repeat split; auto|].
    intros i [[[t p] c] e] [[[t' p'] c'] e'] ((H1 & H2 & H3 & H4) & H5). cbn in H1, H2, H3, H4, H5. subst p' c' e'. do 3 same.
    eapply rres_bind; [apply linear_rel; auto|]. intros [[t1 p1] c1] [[t2 p2] c2] H6. split; auto.
  - intros [[[t p] c] e] [[[t' p'] c'] e'] (H5 & _). exact H5.
Qed.
Lemma grouped_rel Q LD RM rnd S D G st st' pos Ar Ai ct sk Act : bs st -> bs st' ->
  rres eq3 (grouped_lt Q LOGN LD RM rnd S D G st pos Ar Ai ct sk Act) (grouped_lt Q LOGN LD RM rnd S D G st' pos Ar Ai ct sk Act).
Proof.
  intros H H'. unfold grouped_lt. destruct (G =? 1); [apply serial_rel; auto|]. destruct (G =? 2); [apply rres_same; intros [] _; apply serial_rel; auto|].
  destruct (G =? 3); [apply rres_same; intros [] _; apply serial_rel; auto|]. destruct (G =? 4); [apply rres_same; intros [] _; apply serial_rel; auto|]. exact I.
Qed.
Definition ctsok (u : tables) : Prop := (match u with Some t => Ok t | None => cts_tables LOGN end) = Ok (cts_tabs LOGN).
Definition stcok (u : stables) : Prop := (match u with Some t => Ok t | None => stc_tables LOGN end) = Ok (stc_tabs LOGN).
Definition eqc (x y : tables * tables * nat * sq * sq) : Prop :=
  let '(u, t, p, c0, c1) := x in let '(u', t', p', c0', c1') := y in (ctsok u /\ ctsok u') /\ (bs t /\ bs t') /\ p = p' /\ c0 = c0' /\ c1 = c1'.
Definition eqs (x y : stables * tables * nat * sq) : Prop :=
  let '(u, t, p, c) := x in let '(u', t', p', c') := y in (stcok u /\ stcok u') /\ (bs t /\ bs t') /\ p = p' /\ c = c'.
Lemma cts_rel Q LD RM rnd G u u' st st' pos ct sk ct0 ct1 : ctsok u -> ctsok u' -> bs st -> bs st' ->
  rres eqc (CoeffToSlot Q LOGN LD RM rnd G u st pos ct sk ct0 ct1) (CoeffToSlot Q LOGN LD RM rnd G u' st' pos ct sk ct0 ct1).
Proof.
  intros H1 H2 H3 H4. unfold CoeffToSlot. rewrite H1, H2. destruct (cts_tabs LOGN) as [U V] eqn:ET. cbn [bind].
  eapply rres_bind; [apply grouped_rel; auto|]. intros [[t1 p1] c1] [[t2 p2] c2] (H5 & H6 & H7 & H8). cbn in H5, H6, H7, H8. subst p2 c2.
  same. apply rres_same. intros [k p] _. do 7 same. unfold eqc, ctsok. rewrite ET. repeat split; auto.
Qed.
Lemma stc_rel Q LD RM rnd G u u' st st' pos ct0 ct1 sk ct_ : stcok u -> stcok u' -> bs st -> bs st' ->
  rres eqs (SlotToCoeff Q LOGN LD RM rnd G u st pos ct0 ct1 sk ct_) (SlotToCoeff Q LOGN LD RM rnd G u' st' pos ct0 ct1 sk ct_).
Proof.
  intros H1 H2 H3 H4. unfold SlotToCoeff. rewrite H1, H2. destruct (stc_tabs LOGN) as [[[U V] U'] V'] eqn:ET. cbn [bind].
  eapply rres_bind; [apply grouped_rel; auto|]. intros [[t1 p1] c1] [[t2 p2] c2] (H5 & H6 & H7 & H8). cbn in H5, H6, H7, H8. subst p2 c2.
  eapply rres_bind; [apply grouped_rel; auto|]. intros [[t3 p3] c3] [[t4 p4] c4] (H9 & H10 & H11 & H12). cbn in H9, H10, H11, H12. subst p4 c4.
  same. unfold eqs, stcok. rewrite ET. repeat split; auto.
Qed.
End LogN.

Definition reach (s : statics) : Prop := forall l, 2 <= l <= 27 ->
  fwd_state l (s_fft s l) /\ bwd_state l (s_ifft s l) /\
  (forall Q LD G, (match s_cts s Q l LD G with Some t => Ok t | None => cts_tables l end) = Ok (cts_tabs l)) /\
  (forall Q LD G, (match s_stc s Q l LD G with Some t => Ok t | None => stc_tables l end) = Ok (stc_tabs l)).
Lemma reach_none : reach no_statics.
Proof.
  intros l Hl. cbn. split; [left; reflexivity|]. split; [left; reflexivity|]. split; intros _ _ _; [apply cts_tables_ok; auto|apply stc_tables_ok; auto].
Qed.
Lemma set1_case {A} (P : A -> Prop) f a v x : P (f x) -> (x = a -> P v) -> P (set1 f a v x).
Proof. intros H1 H2. unfold set1. destruct (Z.eqb_spec x a); auto. Qed.
Lemma set4_case {A} (P : A -> Prop) f a b c d v x y z w : P (f x y z w) -> (y = b -> P v) -> P (set4 f a b c d v x y z w).
Proof.
  intros H1 H2. unfold set4, set1. destruct (Z.eqb_spec x a); auto. subst. destruct (Z.eqb_spec y b); auto. subst. destruct (Z.eqb_spec z c); auto. subst.
  destruct (Z.eqb_spec w d); auto.
Qed.
Lemma reach_fft s l t : reach s -> fwd_state l t -> reach (set_fft s l t).
Proof. intros H Ht k Hk. destruct (H k Hk) as (H1 & H2 & H3 & H4). cbn. repeat split; auto. apply set1_case; auto. intros ->; auto. Qed.
Lemma reach_ifft s l t : reach s -> bwd_state l t -> reach (set_ifft s l t).
Proof. intros H Ht k Hk. destruct (H k Hk) as (H1 & H2 & H3 & H4). cbn. repeat split; auto. apply set1_case; auto. intros ->; auto. Qed.
Lemma reach_cts s Q l LD G u : reach s -> (match u with Some t => Ok t | None => cts_tables l end) = Ok (cts_tabs l) -> reach (set_cts s Q l LD G u).
Proof.
  intros H Ht k Hk. destruct (H k Hk) as (H1 & H2 & H3 & H4). cbn. repeat split; auto. intros. 
  apply (set4_case (fun u => (match u with Some t => Ok t | None => cts_tables k end) = Ok (cts_tabs k))); auto. intros ->; auto.
Qed.
Lemma reach_stc s Q l LD G u : reach s -> (match u with Some t => Ok t | None => stc_tables l end) = Ok (stc_tabs l) -> reach (set_stc s Q l LD G u).
Proof.
  intros H Ht k Hk. destruct (H k Hk) as (H1 & H2 & H3 & H4). cbn. repeat split; auto. intros. 
  apply (set4_case (fun u => (match u with Some t => Ok t | None => stc_tables k end) = Ok (stc_tabs k))); auto. intros ->; auto.
Qed.
Definition eqp (x y : statics * nat * pout) : Prop := reach (fst (fst x)) /\ reach (fst (fst y)) /\ snd (fst x) = snd (fst y) /\ snd x = snd y.
Lemma pstep_rel RM rnd s s' pos c : 2 <= logn c <= 27 -> reach s -> reach s' -> rres eqp (pstep RM rnd s pos c) (pstep RM rnd s' pos c).
Proof.
  intros Hl Hs Hs'. destruct (Hs _ Hl) as (H1 & H2 & H3 & H4). destruct (Hs' _ Hl) as (H1' & H2' & H3' & H4').
  destruct c; cbn [logn] in *; cbn [pstep].
  all: try (eapply rres_bind; [first [apply fft_rel|apply fftNR_rel|apply decode_rel|apply decode_log_rel]; auto|]; intros [t [a b]] [t' [a' b']] (E1 & E2 & E3); cbn in E1, E2, E3; inversion E3; subst;
    split; [apply reach_fft; auto|]; split; [apply reach_fft; auto|]; split; reflexivity).
  all: try (eapply rres_bind; [first [apply ifft_rel|apply ifftNR_rel|apply encode_rel]; auto|]; intros [t a] [t' a'] (E1 & E2 & E3); cbn in E1, E2, E3; subst;
    split; [apply reach_ifft; auto|]; split; [apply reach_ifft; auto|]; split; reflexivity).
  all: try (eapply rres_bind; [first [apply linear_rel|apply grouped_rel]; auto|]; intros [[t p] a] [[t' p'] a'] (E1 & E2 & E3 & E4); cbn in E1, E2, E3, E4; subst;
    split; [apply reach_ifft; auto|]; split; [apply reach_ifft; auto|]; split; reflexivity).
  - eapply rres_bind; [apply cts_rel; auto; [apply H3|apply H3']|]. intros [[[[u t] p] c0] c1] [[[[u' t'] p'] c0'] c1'] HE. cbn in HE. destruct HE as ((E1 & E2) & (E3 & E4) & -> & -> & ->).
    split; [apply reach_cts; auto; apply reach_ifft; auto|]. split; [apply reach_cts; auto; apply reach_ifft; auto|]. split; reflexivity.
  - eapply rres_bind; [apply stc_rel; auto; [apply H4|apply H4']|]. intros [[[u t] p] c0] [[[u' t'] p'] c0'] HE. cbn in HE. destruct HE as ((E1 & E2) & (E3 & E4) & -> & ->).
    split; [apply reach_stc; auto; apply reach_ifft; auto|]. split; [apply reach_stc; auto; apply reach_ifft; auto|]. split; reflexivity.
Qed.

(** C53: no call of a program can tell which calls were made before it: with the statics left by the earlier calls each
    call computes what it computes with statics never used before. *)
Theorem C53_programs RM rnd cs : (forall c, In c cs -> 2 <= logn c <= 27) ->
  forall pos, prun RM rnd no_statics pos cs = pfresh RM rnd pos cs.
Proof.
  intros Hl. assert (G : forall s pos, reach s -> prun RM rnd s pos cs = pfresh RM rnd pos cs).
  2: { intros pos. apply G, reach_none. }
  induction cs as [|c cs IH]; intros s pos Hs; [reflexivity|]. cbn [prun pfresh].
  pose proof (pstep_rel RM rnd s no_statics pos c (Hl _ (or_introl eq_refl)) Hs reach_none) as E.
  destruct (pstep RM rnd s pos c) as [[[s1 p1] a1]| | |], (pstep RM rnd no_statics pos c) as [[[s2 p2] a2]| | |]; cbn in E; try contradiction; cbn [bind]; auto.
  destruct E as (E1 & _ & E3 & E4). cbn in E1, E3, E4. subst p2 a2. rewrite IH; auto. intros c' Hc. apply Hl. right; auto.
Qed.
(** A program whose third call reuses the tables of the first; the calls succeed. *)
Example C53_programs_case rnd RM b : rand_stream RM rnd ->
  let call := PFft 2 (array 4 xx) (gfresh R 2) (gfresh R 2) in
  let prog := [call; PCoeffToSlot 120 3 30 2 (repP 120 8 (fun i => ex_m i - negconv 8 (coef s4) b i), repP 120 8 b) (map Some s4) (sq_new 120 8) (sq_new 120 8); call] in
  exists a c, prun RM rnd no_statics 0 prog = Ok [a; c; a].
Proof.
  intros Hr call prog. unfold prog. rewrite C53_programs.
  2: { intros c [<-|[<-|[<-|[]]]]; cbn; lia. }
  destruct C51_example as [st' E]. destruct (C64_CoeffToSlot_case rnd RM b Hr) as (stc' & st1 & pos' & ct0 & ct1 & w0 & w1 & E1 & _).
  cbn [pfresh]. unfold call. cbn [pstep no_statics s_fft s_cts s_ifft]. rewrite E. cbn [bind carray]. rewrite E1. cbn [bind]. eexists; eexists; reflexivity.
Qed.
Print Assumptions C53_programs.
