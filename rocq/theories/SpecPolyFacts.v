(** The specification predicates on polynomials in terms of [repP]. *)
From Coq Require Import ZArith List Bool Lia.
From Verif Require Import Base BaseFacts ZQ ZQFacts ZQFacts2 SpecZQ SpecZQFacts SpecPoly CRTFacts RQFacts.
Import ListNotations.
Open Scope Z_scope.

Lemma holdsP_rep LOGQ N P a : 1 <= LOGQ -> 0 <= N -> holdsP LOGQ N P a <-> P = repP LOGQ N a.
Proof.
  intros HQ HN. split.
  - intros [HL H]. assert (HL' : length P = Z.to_nat N) by lia. destruct (arr_tab [] P N HL') as [f ->]. apply tab_ext. intros i Hi.
    apply holds_rep; auto. apply (H i); auto. apply nth_error_tab. auto.
  - intros ->. split; [unfold repP; rewrite tab_length; lia|]. intros i A Hi E. unfold repP in E.
    rewrite nth_error_tab in E by auto. injection E as <-. apply holds_rep; auto.
Qed.
Lemma objectP_obj LOGQ N P : 1 <= LOGQ -> 0 <= N -> objectP LOGQ N P -> objP LOGQ N P.
Proof.
  intros HQ HN [HL H]. assert (HL' : length P = Z.to_nat N) by lia. destruct (arr_tab [] P N HL') as [f ->]. exists f. split; auto. intros i Hi.
  apply object_length; auto. rewrite Forall_forall in H. apply H. eapply nth_error_In. apply nth_error_tab. eauto.
Qed.
Lemma holdsP_objectP LOGQ N P a : 1 <= LOGQ -> 0 <= N -> holdsP LOGQ N P a -> objP LOGQ N P.
Proof. intros HQ HN H. apply holdsP_rep in H; auto. subst. apply objP_rep. Qed.
Lemma repP_holds LOGQ N a : 1 <= LOGQ -> 0 <= N -> holdsP LOGQ N (repP LOGQ N a) a.
Proof. intros. apply holdsP_rep; auto. Qed.
