(** Lemmas about polynomials as arrays of Z_Q objects. *)
From Coq Require Import ZArith List Bool Lia.
From Verif Require Import Base BaseFacts ZQ ZQFacts ZQFacts2 NTTFacts RQ CRTFacts.
Import ListNotations.
Open Scope Z_scope.

(** Finite choice. *)
Lemma fin_choice {X} (x0 : X) n (R : Z -> X -> Prop) : (forall i, 0 <= i < n -> exists x, R i x) ->
  exists f, forall i, 0 <= i < n -> R i (f i).
Proof.
  destruct (Z_le_gt_dec n 0) as [Hn|Hn]; [intros _; exists (fun _ => x0); intros; lia|].
  apply (zprod_ind (fun n => (forall i, 0 <= i < n -> exists x, R i x) -> exists f, forall i, 0 <= i < n -> R i (f i))).
  - lia.
  - intros _. exists (fun _ => x0). intros; lia.
  - intros m Hm IH H. destruct IH as [f Hf]; [intros; apply H; lia|]. destruct (H m ltac:(lia)) as [x Hx].
    exists (fun i => if i =? m then x else f i). intros i Hi. destruct (Z.eqb_spec i m) as [->|]; auto. apply Hf. lia.
Qed.

(** A polynomial given by integer coefficients. *)
Definition repP (LOGQ N : Z) (a : Z -> Z) : poly := tab N (fun i => rep LOGQ (a i)).

(** An object: N coefficients of the right size, with any contents. *)
Definition objP (LOGQ N : Z) (D : poly) : Prop :=
  exists d, D = tab N d /\ forall i, 0 <= i < N -> length (d i) = Z.to_nat (len LOGQ).

Lemma repP_ext LOGQ N a b : (forall i, 0 <= i < N -> a i mod 2 ^ LOGQ = b i mod 2 ^ LOGQ) -> repP LOGQ N a = repP LOGQ N b.
Proof. intros H. apply tab_ext. intros i Hi. apply rep_congr. auto. Qed.
Lemma repP_inj LOGQ N a b : 1 <= LOGQ -> repP LOGQ N a = repP LOGQ N b ->
  forall i, 0 <= i < N -> a i mod 2 ^ LOGQ = b i mod 2 ^ LOGQ.
Proof. intros HQ E i Hi. apply rep_inj; auto. apply (tab_inj N _ _ E i Hi). Qed.
Lemma objP_rep LOGQ N a : objP LOGQ N (repP LOGQ N a).
Proof. exists (fun i => rep LOGQ (a i)). split; auto. intros. apply rep_length. Qed.
Lemma objP_new LOGQ N : objP LOGQ N (rq_new LOGQ N).
Proof. exists (fun _ => zq_new LOGQ). split; [apply repeat_tab|]. intros. apply zq_new_length. Qed.
Lemma objP_tab LOGQ N (d : Z -> arr) : (forall i, 0 <= i < N -> length (d i) = Z.to_nat (len LOGQ)) -> objP LOGQ N (tab N d).
Proof. exists d. auto. Qed.

Lemma pupd_tab N d i f x : 0 <= i < N -> f (d i) = Ok x ->
  pupd (tab N d) i f = Ok (tab N (fun k => if k =? i then x else d k)).
Proof. intros Hi E. unfold pupd. rewrite lget_tab by auto. cbn [bind]. rewrite E. cbn [bind]. apply lset_tab. auto. Qed.

(** A loop that updates every coefficient independently. *)
Lemma pupd_loop N (body : Z -> poly -> res poly) (F : Z -> arr -> res arr) d e :
  0 <= N -> (forall i D, 0 <= i < N -> body i D = pupd D i (F i)) ->
  (forall i, 0 <= i < N -> F i (d i) = Ok (e i)) ->
  for_ 0 N body (tab N d) = Ok (tab N e).
Proof.
  intros HN Hb HF.
  rewrite (for_closed _ (fun i => tab N (fun k => if k <? i then e k else d k)) _ _ _ (tab N e)); auto.
  - apply tab_ext. intros j Hj. zc; auto.
  - apply tab_ext. intros j Hj. zc; auto.
  - intros i Hi. rewrite Hb by auto. rewrite (pupd_tab N _ i _ (e i)); auto.
    + f_equal. apply tab_ext. intros j Hj. zc; auto; subst; auto.
    + destruct (Z.ltb_spec i i); [lia|]. auto.
Qed.

Section RQ.
  Variables (LOGQ N : Z).
  Hypothesis HQ : 1 <= LOGQ.
  Hypothesis HN : 0 <= N.

  Lemma rq_copy_rep D a : objP LOGQ N D -> rq_copy LOGQ N D (repP LOGQ N a) = Ok (repP LOGQ N a).
  Proof.
    intros (d & -> & Hd). unfold rq_copy. apply (pupd_loop N _ (fun i d => zq_copy LOGQ d (rep LOGQ (a i)))); auto.
    - intros i D Hi. unfold repP. rewrite lget_tab by auto. reflexivity.
    - intros i Hi. apply zq_copy_rep; auto.
  Qed.
  Lemma rq_add_rep a b : rq_add LOGQ N (repP LOGQ N a) (repP LOGQ N b) = Ok (repP LOGQ N (fun i => a i + b i)).
  Proof.
    unfold rq_add. apply (pupd_loop N _ (fun i d => zq_add LOGQ d (rep LOGQ (b i)))); auto.
    - intros i D Hi. unfold repP. rewrite lget_tab by auto. reflexivity.
    - intros i Hi. apply zq_add_rep; auto.
  Qed.
  Lemma rq_sub_rep a b : rq_sub LOGQ N (repP LOGQ N a) (repP LOGQ N b) = Ok (repP LOGQ N (fun i => a i - b i)).
  Proof.
    unfold rq_sub. apply (pupd_loop N _ (fun i d => zq_sub LOGQ d (rep LOGQ (b i)))); auto.
    - intros i D Hi. unfold repP. rewrite lget_tab by auto. reflexivity.
    - intros i Hi. apply zq_sub_rep; auto.
  Qed.
  Lemma rq_mul_word_rep a w : is_word w -> rq_mul_word LOGQ N (repP LOGQ N a) w = Ok (repP LOGQ N (fun i => a i * w)).
  Proof.
    intros Hw. unfold rq_mul_word. apply (pupd_loop N _ (fun i d => zq_mul_word LOGQ d w)); auto.
    intros i Hi. apply zq_mul_word_rep; auto.
  Qed.
  Lemma rq_setzero_ok D : objP LOGQ N D -> rq_setzero LOGQ N D = Ok (repP LOGQ N (fun _ => 0)).
  Proof.
    intros (d & -> & Hd). unfold rq_setzero. apply (pupd_loop N _ (fun i d => zq_setzero LOGQ d)); auto.
    intros i Hi. rewrite zq_setzero_ok; auto.
  Qed.
  Lemma rq_resize_rep to D a : 1 <= to -> objP to N D ->
    rq_resize LOGQ to N (repP LOGQ N a) D = Ok (repP to N (fun i => cent LOGQ (a i))).
  Proof.
    intros Ht (d & -> & Hd). unfold rq_resize. apply (pupd_loop N _ (fun i d => zq_resize LOGQ to (rep LOGQ (a i)) d)); auto.
    - intros i D Hi. unfold repP. rewrite lget_tab by auto. reflexivity.
    - intros i Hi. apply zq_resize_rep; auto.
  Qed.
End RQ.
