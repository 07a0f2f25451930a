(** Bridge between the specification vocabulary of SpecZQ.v and the tables of BaseFacts.v. *)
From Coq Require Import ZArith List Bool Lia.
From Verif Require Import Base BaseFacts ZQ ZQFacts ZQFacts2 SpecZQ.
Import ListNotations.
Open Scope Z_scope.

Lemma tab_cons {A} n (f : Z -> A) : 0 < n -> tab n f = f 0 :: tab (n - 1) (fun i => f (i + 1)).
Proof.
  intros H. unfold tab. replace (Z.to_nat n) with (S (Z.to_nat (n - 1))) by lia. cbn [seq map].
  f_equal. rewrite <- seq_shift, map_map. apply map_ext. intros k. f_equal. lia.
Qed.

Lemma words_value_raw m : forall v, 0 <= v < Wp (Z.of_nat m) ->
  words_value (raw (Z.of_nat m) v) = Some v.
Proof.
  induction m; intros v Hv.
  - cbn. change (Wp (Z.of_nat 0)) with 1 in Hv. f_equal. lia.
  - rewrite Nat2Z.inj_succ in *. unfold Z.succ in *. rewrite Wp_S in Hv by lia.
    unfold raw, wtab. rewrite tab_cons by lia. cbn [words_value].
    pose proof (dg_word v 0) as Hw. unfold is_word in Hw. fold W in *. change (2 ^ 64) with W.
    destruct (Z.leb_spec 0 (dg v 0)); [|lia]. destruct (Z.ltb_spec (dg v 0) W); [|lia]. cbn [andb].
    replace (Z.of_nat m + 1 - 1) with (Z.of_nat m) by lia.
    replace (tab (Z.of_nat m) (fun i => Some (dg v (i + 1)))) with (raw (Z.of_nat m) (v / W)).
    2:{ apply tab_ext. intros i Hi. f_equal. rewrite <- Wp_1. apply dg_div; lia. }
    pose proof W_pos. rewrite IHm.
    + f_equal. rewrite dg_0. pose proof (Z.div_mod v W ltac:(lia)). lia.
    + split; [apply Z.div_pos; lia|]. apply Z.div_lt_upper_bound; lia.
Qed.

Lemma words_value_inv (A : arr) : forall v, words_value A = Some v ->
  A = raw (Z.of_nat (length A)) v /\ 0 <= v < Wp (Z.of_nat (length A)).
Proof.
  induction A as [|c A IH]; intros v H.
  - cbn in *. injection H as <-. split; [reflexivity|]. change (Wp 0) with 1. lia.
  - cbn [words_value] in H. destruct c as [w|]; [|discriminate].
    change (2 ^ 64) with W in H.
    destruct (Z.leb_spec 0 w); [|discriminate]. destruct (Z.ltb_spec w W); [|discriminate].
    cbn [andb] in H. destruct (words_value A) as [u|] eqn:E; [|discriminate].
    assert (Ev : v = w + W * u) by congruence. clear H. subst v. destruct (IH u eq_refl) as [EA Hu]. cbn [length]. rewrite Nat2Z.inj_succ.
    unfold Z.succ. rewrite Wp_S by lia.
    pose proof W_pos. assert (W * (u + 1) <= Wp (Z.of_nat (length A)) * W) by nia.
    split; [|nia]. unfold raw, wtab. rewrite tab_cons by lia. f_equal.
    + f_equal. rewrite dg_0. rewrite (Z.mul_comm W), Z.mod_add by lia. rewrite Z.mod_small; lia.
    + replace (Z.of_nat (length A) + 1 - 1) with (Z.of_nat (length A)) by lia.
      rewrite EA at 1. apply tab_ext. intros i Hi. f_equal. rewrite <- dg_div by lia.
      f_equal. rewrite Wp_1. rewrite (Z.mul_comm W), Z.div_add by lia. rewrite Z.div_small by lia. lia.
Qed.

Lemma stores_raw LOGQ A v : 1 <= LOGQ ->
  stores LOGQ A v <-> A = raw (len LOGQ) v /\ 0 <= v < Wp (len LOGQ).
Proof.
  intros H. unfold stores. rewrite <- len_div by lia. pose proof (len_bounds LOGQ H). split.
  - intros [E1 E2]. apply words_value_inv in E2. rewrite E1 in E2. auto.
  - intros [-> Hv]. rewrite raw_length. split; [lia|].
    rewrite <- (Z2Nat.id (len LOGQ)) by lia. apply words_value_raw. rewrite Z2Nat.id by lia. auto.
Qed.

Lemma holds_rep LOGQ A v : 1 <= LOGQ -> holds LOGQ A v <-> A = rep LOGQ v.
Proof.
  intros H. unfold holds. rewrite stores_raw by auto. unfold rep. split; [tauto|].
  intros ->. split; auto. apply mod_le_Wp. auto.
Qed.

Lemma object_length LOGQ (A : arr) : 1 <= LOGQ -> object LOGQ A -> length A = Z.to_nat (len LOGQ).
Proof. intros H. unfold object. rewrite <- len_div by lia. lia. Qed.

Lemma holds_object LOGQ A v : holds LOGQ A v -> object LOGQ A.
Proof. intros [H _]. exact H. Qed.

Lemma signed_cent LOGQ v s : 1 <= LOGQ -> signed LOGQ v s <-> s = cent LOGQ v.
Proof.
  intros H. unfold signed. split.
  - intros [Hb [k ->]]. symmetry. apply cent_unique; auto.
    apply Z.mod_add. pose proof (pow2_pos LOGQ). lia.
  - intros ->. split; [apply cent_bounds; auto|apply cent_exists; auto].
Qed.

Lemma stores_holds_canonical LOGQ A v : stores LOGQ A v -> 0 <= v < 2 ^ LOGQ -> holds LOGQ A v.
Proof. intros. unfold holds. rewrite Z.mod_small by auto. auto. Qed.
