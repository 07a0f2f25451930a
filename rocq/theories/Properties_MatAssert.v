(** C47: += and -= refuse a matrix with other diagonals. *)
From Coq Require Import ZArith List Bool Lia Ring.
From Verif Require Import Base BaseFacts GSum Matrix MatrixFacts MatMulFacts SpecMat Properties_Mat.
Import ListNotations.
Open Scope Z_scope.

(** The first place where two families of offsets differ *)
Lemma first_difference S (o p : Z -> Z) : 0 <= S -> (forall s, 0 <= s < S -> o s = p s) \/ exists t, 0 <= t < S /\ o t <> p t /\ forall s, 0 <= s < t -> o s = p s.
Proof.
  intros HS. pattern S. apply natlike_ind; [left; intros; lia| |exact HS]. intros k Hk [H|(t & Ht & H)].
  - destruct (Z.eq_dec (o k) (p k)) as [E|E].
    + left. intros s Hs. destruct (Z.eq_dec s k) as [->|]; auto. apply H. lia.
    + right. exists k. split; [lia|]. split; auto.
  - right. exists t. split; [lia|auto].
Qed.

Section Assert.
Context {K : ops}.
Lemma loop_refused {St} (body body' : Z -> St -> res St) t S A A' (off : St -> res Z) (o p : Z -> Z) (k : Z -> St -> res St) : 0 <= t < S -> o t <> p t ->
  (forall s w, 0 <= s < t -> body s w = body' s w) ->
  (forall w, body t w = (a <- off w ;; assert_ (a =? p t)%Z ;;; k t w)) -> (forall w, body' t w = (a <- off w ;; assert_ (a =? o t)%Z ;;; k t w)) ->
  for_ 0 S body' A = Ok A' -> for_ 0 S body A = Abort.
Proof.
  intros Ht Hne Hext Hb Hb' E. rewrite (for_split body' 0 t S) in E by lia. rewrite (for_split body 0 t S) by lia. rewrite (for_ext body body' 0 t) by (intros; apply Hext; lia).
  destruct (for_ 0 t body' A) as [A1| | |]; try discriminate E. cbn [bind] in *. rewrite for_step in E by lia. rewrite for_step by lia. rewrite Hb' in E. rewrite Hb.
  destruct (off A1) as [a| | |]; try discriminate E. cbn [bind] in *. destruct (Z.eqb_spec a (o t)) as [Ea|]; [|discriminate E]. rewrite Ea, (proj2 (Z.eqb_neq _ _) Hne). reflexivity.
Qed.

(** If one diagonal of B has another offset than the diagonal of A with the same index, A += B and A -= B abort *)
Theorem C47_add_mismatch N S (v : Z -> Z -> K) o z v2 o2 z2 s : 0 <= N -> 0 <= s < S -> o s <> o2 s ->
  sd_add N S (diagonals N S v o z) (diagonals N S v2 o2 z2) = Abort.
Proof.
  intros HN Hs Hne. destruct (first_difference S o o2 ltac:(lia)) as [H|(t & Ht & Hd & Heq)]; [destruct Hne; auto|]. rewrite !diagonals_sdi.
  pose proof (sd_add_ok N S v o z v2 o z2 HN ltac:(lia) ltac:(auto)) as E. unfold sd_add in *.
  match type of E with for_ 0 S ?b' _ = _ => match goal with |- for_ 0 S ?b _ = _ =>
    refine (loop_refused b b' t S _ _ (fun A => get_off A t) o o2 (fun s A => for_ 0 N (fun i A => x <- get_vec A s i ;; set_vec A s i (x + v2 s i)%num) A) Ht Hd _ _ _ E) end end.
  - intros k A Hk. destruct (get_off A k); try reflexivity. cbn [bind]. rewrite !get_off_sdi by lia. cbn [bind]. rewrite <- Heq by lia. destruct (_ =? _); cbn [assert_ bind]; [|reflexivity]. apply for_ext. intros i w Hi. rewrite !get_vec_sdi by lia. reflexivity.
  - intros A. destruct (get_off A t); try reflexivity. cbn [bind]. rewrite get_off_sdi by lia. cbn [bind]. destruct (_ =? _); cbn [assert_ bind]; [|reflexivity]. apply for_ext. intros i w Hi. rewrite get_vec_sdi by lia. reflexivity.
  - intros A. destruct (get_off A t); try reflexivity. cbn [bind]. rewrite get_off_sdi by lia. cbn [bind]. destruct (_ =? _); cbn [assert_ bind]; [|reflexivity]. apply for_ext. intros i w Hi. rewrite get_vec_sdi by lia. reflexivity.
Qed.
Theorem C47_sub_mismatch N S (v : Z -> Z -> K) o z v2 o2 z2 s : 0 <= N -> 0 <= s < S -> o s <> o2 s ->
  sd_sub N S (diagonals N S v o z) (diagonals N S v2 o2 z2) = Abort.
Proof.
  intros HN Hs Hne. destruct (first_difference S o o2 ltac:(lia)) as [H|(t & Ht & Hd & Heq)]; [destruct Hne; auto|]. rewrite !diagonals_sdi.
  pose proof (sd_sub_ok N S v o z v2 o z2 HN ltac:(lia) ltac:(auto)) as E. unfold sd_sub in *.
  match type of E with for_ 0 S ?b' _ = _ => match goal with |- for_ 0 S ?b _ = _ =>
    refine (loop_refused b b' t S _ _ (fun A => get_off A t) o o2 (fun s A => for_ 0 N (fun i A => x <- get_vec A s i ;; set_vec A s i (x - v2 s i)%num) A) Ht Hd _ _ _ E) end end.
  - intros k A Hk. destruct (get_off A k); try reflexivity. cbn [bind]. rewrite !get_off_sdi by lia. cbn [bind]. rewrite <- Heq by lia. destruct (_ =? _); cbn [assert_ bind]; [|reflexivity]. apply for_ext. intros i w Hi. rewrite !get_vec_sdi by lia. reflexivity.
  - intros A. destruct (get_off A t); try reflexivity. cbn [bind]. rewrite get_off_sdi by lia. cbn [bind]. destruct (_ =? _); cbn [assert_ bind]; [|reflexivity]. apply for_ext. intros i w Hi. rewrite get_vec_sdi by lia. reflexivity.
  - intros A. destruct (get_off A t); try reflexivity. cbn [bind]. rewrite get_off_sdi by lia. cbn [bind]. destruct (_ =? _); cbn [assert_ bind]; [|reflexivity]. apply for_ext. intros i w Hi. rewrite get_vec_sdi by lia. reflexivity.
Qed.
End Assert.

(** Two diagonals, the second ones at offsets 3 and 1 *)
Example C47_mismatch_case :
  sd_add 4 2 (diagonals (F := Zops) 4 2 (fun s i => s + i) (fun s => 3 * s) (fun _ => false)) (diagonals (F := Zops) 4 2 (fun s i => s * i) (fun s => s) (fun _ => false)) = Abort /\
  sd_sub 4 2 (diagonals (F := Zops) 4 2 (fun s i => s + i) (fun s => 3 * s) (fun _ => false)) (diagonals (F := Zops) 4 2 (fun s i => s * i) (fun s => s) (fun _ => false)) = Abort.
Proof. split; [apply (C47_add_mismatch (K := Zops) 4 2) with (s := 1)|apply (C47_sub_mismatch (K := Zops) 4 2) with (s := 1)]; lia. Qed.
