(** conv for one-word moduli of 61 to 64 bits: which coefficients make it fail. *)
From Coq Require Import ZArith List Bool Lia.
From Verif Require Import Base BaseFacts Sums ZQ ZQFacts ZQFacts2 RQ RQFacts Conv ConvFacts NTT NTTFacts CRT CRTFacts SpecZQ SpecZQFacts SpecPoly SpecPolyFacts PolyRing Properties_Conv.
Import ListNotations.
Open Scope Z_scope.

(** The coefficients between minus the largest and minus the smallest of the three primes used (the first three of
    conv.h:39-142): for some of the primes their absolute value is larger, for others it is not. *)
Definition between_primes (s : Z) : Prop := - 0x1000000000980001 <= s < - 0xfffffffff840001.

Lemma conv_L_word LOGQ : 61 <= LOGQ <= 64 -> conv_L LOGQ = 3.
Proof. intros H. assert (Hc : LOGQ = 61 \/ LOGQ = 62 \/ LOGQ = 63 \/ LOGQ = 64) by lia. destruct Hc as [->|[->|[->| ->]]]; reflexivity. Qed.

(** The residue stands for the value plus 2^64 if the value is below minus the prime. *)
Lemma icrt_word_one LOGQ x j : 61 <= LOGQ <= 64 -> 0 <= j < 3 ->
  icrt_word LOGQ x (qtab j) =[qtab j]= cent LOGQ x + (if cent LOGQ x <? - qtab j then 2 ^ 64 else 0).
Proof.
  intros HQ Hj. pose proof (qtab_entry j ltac:(lia)) as [_ Hq]. pose proof (cent_bounds LOGQ x ltac:(lia)) as Hb.
  assert (Hp : 2 ^ (LOGQ - 1) <= 2 ^ 63) by (apply Z.pow_le_mono_r; lia).
  destruct (Z.ltb_spec (cent LOGQ x) (- qtab j)) as [Hs|Hs].
  - unfold icrt_word. cbv zeta. destruct (Z.ltb_spec (cent LOGQ x) 0); [|lia].
    replace (len LOGQ =? 1) with true.
    2:{ symmetry. apply Z.eqb_eq. unfold len. rewrite Z.quot_div_nonneg by lia. symmetry. apply Z.div_unique with (LOGQ + 63 - 64); lia. }
    unfold wsub, wrap. change W with (2 ^ 64). constructor.
    replace ((qtab j - - cent LOGQ x) mod 2 ^ 64) with (cent LOGQ x + 2 ^ 64 + 1 * qtab j) by (apply Z.mod_unique with (-1); lia).
    apply Z.mod_add. lia.
  - rewrite Z.add_0_r. apply icrt_word_ok; [lia|unfold W; lia|]. right. lia.
Qed.
Definition lifted (LOGQ x : Z) : Z := cent LOGQ x + (if cent LOGQ x <? - 0x1000000000980001 then 2 ^ 64 else 0).
Lemma icrt_word_lifted LOGQ x j : 61 <= LOGQ <= 64 -> 0 <= j < 3 -> ~ between_primes (cent LOGQ x) ->
  icrt_word LOGQ x (qtab j) =[qtab j]= lifted LOGQ x.
Proof.
  intros HQ Hj Hn. rewrite (icrt_word_one LOGQ x j HQ Hj). unfold between_primes in Hn. unfold lifted.
  assert (Hm : 0xfffffffff840001 <= qtab j <= 0x1000000000980001).
  { assert (Hc : j = 0 \/ j = 1 \/ j = 2) by lia. destruct Hc as [->|[->| ->]]; split; vm_compute; discriminate. }
  destruct (Z.ltb_spec (cent LOGQ x) (- qtab j)); destruct (Z.ltb_spec (cent LOGQ x) (- 0x1000000000980001)); try lia; reflexivity.
Qed.
Lemma lifted_bounds LOGQ x : 61 <= LOGQ <= 64 -> Z.abs (lifted LOGQ x) <= 2 ^ 64.
Proof.
  intros HQ. pose proof (cent_bounds LOGQ x ltac:(lia)) as Hb. assert (Hp : 2 ^ (LOGQ - 1) <= 2 ^ 63) by (apply Z.pow_le_mono_r; lia).
  unfold lifted. destruct (Z.ltb_spec (cent LOGQ x) (- 0x1000000000980001)); lia.
Qed.
Lemma lifted_congr LOGQ x : 61 <= LOGQ <= 64 -> lifted LOGQ x mod 2 ^ LOGQ = x mod 2 ^ LOGQ.
Proof.
  intros HQ. rewrite <- (cent_congr LOGQ x ltac:(lia)). unfold lifted. destruct (_ <? _).
  - replace (2 ^ 64) with (2 ^ (64 - LOGQ) * 2 ^ LOGQ) by (rewrite <- Z.pow_add_r by lia; f_equal; lia). apply Z.mod_add.
    assert (0 < 2 ^ LOGQ) by (apply Z.pow_pos_nonneg; lia). lia.
  - rewrite Z.add_0_r. reflexivity.
Qed.

(** Without coefficients between the primes the product is right, however large the coefficients. *)
Theorem C28_conv_word_outside : forall k LOGQ A B C a b, 1 <= k <= 17 -> 61 <= LOGQ <= 64 ->
  holdsP LOGQ (2 ^ k) A a -> holdsP LOGQ (2 ^ k) B b -> objectP LOGQ (2 ^ k) C ->
  (forall i s, 0 <= i < 2 ^ k -> signed LOGQ (a i) s \/ signed LOGQ (b i) s -> ~ between_primes s) ->
  exists D, conv_poly LOGQ (2 ^ k) A B C = Ok D /\ holdsP LOGQ (2 ^ k) D (negconv (2 ^ k) a b).
Proof.
  intros k LOGQ A B C a b Hk HW HA HB HC Hs. rewrite <- (Z2Nat.id k) in * by lia. set (L := Z.to_nat k) in *.
  assert (HL : (1 <= L <= 17)%nat) by lia. clearbody L. clear k Hk. assert (HQ : 1 <= LOGQ) by lia.
  assert (HN : 0 <= 2 ^ Z.of_nat L) by (apply Z.pow_nonneg; lia).
  assert (HN17 : 2 ^ Z.of_nat L <= 2 ^ 17) by (apply Z.pow_le_mono_r; lia).
  apply holdsP_rep in HA, HB; auto. subst. apply objectP_obj in HC; auto.
  destruct (conv_new_table LOGQ L ltac:(lia) HL) as (M & E & HM). rewrite (conv_L_word LOGQ HW) in *.
  destruct (CONV_gen 3 L qtab M LOGQ (qtab_moduli 3 ltac:(lia)) HM ltac:(lia) ltac:(lia) a b C HC) as (c & Ec & Hc).
  exists (repP LOGQ (2 ^ Z.of_nat L) c). split.
  { unfold conv_poly, conv_call. rewrite (conv_L_word LOGQ HW), E. cbn [bind]. rewrite Ec. reflexivity. }
  apply holdsP_rep; auto. apply repP_ext. intros i Hi. destruct (Hc i Hi) as [H1 H2].
  assert (Ei : c i = negconv (2 ^ Z.of_nat L) (fun k => lifted LOGQ (a k)) (fun k => lifted LOGQ (b k)) i).
  { apply (crt_unique 3 qtab (qtab_moduli 3 ltac:(lia))); auto.
    - intros j Hj. rewrite (H2 j Hj). apply negconv_eqq; auto; intros m Hm; apply icrt_word_lifted; auto;
        apply (Hs m); auto; [left|right]; apply signed_cent; auto.
    - assert (Hb : Z.abs (negconv (2 ^ Z.of_nat L) (fun k => lifted LOGQ (a k)) (fun k => lifted LOGQ (b k)) i) <= 2 ^ Z.of_nat L * (2 ^ 64 * 2 ^ 64)).
      { apply negconv_bound; auto; try lia; intros; apply lifted_bounds; auto. }
      pose proof (qtab_prod 3 ltac:(lia)) as Hp. unfold Pq. assert (2 ^ Z.of_nat L * (2 ^ 64 * 2 ^ 64) <= 2 ^ 17 * (2 ^ 64 * 2 ^ 64)) by (apply Z.mul_le_mono_nonneg_r; lia).
      change (2 ^ (60 * 3 - 1)) with (2 ^ 34 * (2 ^ 17 * (2 ^ 64 * 2 ^ 64))) in Hp. lia. }
  rewrite Ei. apply (eqq_eq (2 ^ LOGQ)). apply negconv_eqq; auto; intros; constructor; apply lifted_congr; auto.
Qed.

(** The number that conv adds to a coefficient between the primes, the product with 1 being formed. *)
Definition excess (s : Z) : Z :=
  if s <? - 0xffffffffffc0001 then 689081978613860443069070364174972061129063798224147262
  else 738855338061159618365730564286481550591923654554485433.
Lemma negconv_one_r N a i : 1 <= N -> 0 <= i < N -> negconv N a (fun k => if k =? 0 then 1 else 0) i = a i.
Proof.
  intros HN Hi. unfold negconv. rewrite (zsum_single N i); auto.
  - destruct (Z.leb_spec i i); [|lia]. rewrite Z.sub_diag. cbn. lia.
  - intros k Hk Hne. destruct (Z.leb_spec k i); [destruct (Z.eqb_spec (i - k) 0)|destruct (Z.eqb_spec (N + i - k) 0)]; try lia.
Qed.

(** A coefficient between the primes, at any place and among any others, is wrong in the product with 1. *)
Theorem C28_conv_word_between : forall k LOGQ A B C a, 1 <= k <= 17 -> 61 <= LOGQ <= 64 ->
  holdsP LOGQ (2 ^ k) A a -> holdsP LOGQ (2 ^ k) B (fun i => if i =? 0 then 1 else 0) -> objectP LOGQ (2 ^ k) C ->
  exists D d, conv_poly LOGQ (2 ^ k) A B C = Ok D /\ holdsP LOGQ (2 ^ k) D d /\
    forall i s, 0 <= i < 2 ^ k -> signed LOGQ (a i) s ->
      (~ between_primes s -> (d i) mod 2 ^ LOGQ = s mod 2 ^ LOGQ) /\
      (between_primes s -> (d i) mod 2 ^ LOGQ = (s + excess s) mod 2 ^ LOGQ /\ (d i) mod 2 ^ LOGQ <> s mod 2 ^ LOGQ).
Proof.
  intros k LOGQ A B C a Hk HW HA HB HC. rewrite <- (Z2Nat.id k) in * by lia. set (L := Z.to_nat k) in *.
  assert (HL : (1 <= L <= 17)%nat) by lia. clearbody L. clear k Hk. assert (HQ : 1 <= LOGQ) by lia.
  assert (HN : 1 <= 2 ^ Z.of_nat L) by (assert (0 < 2 ^ Z.of_nat L) by (apply Z.pow_pos_nonneg; lia); lia).
  apply holdsP_rep in HA, HB; try lia. subst. apply objectP_obj in HC; try lia.
  destruct (conv_new_table LOGQ L ltac:(lia) HL) as (M & E & HM). rewrite (conv_L_word LOGQ HW) in *.
  destruct (CONV_gen 3 L qtab M LOGQ (qtab_moduli 3 ltac:(lia)) HM ltac:(lia) ltac:(lia) a (fun i => if i =? 0 then 1 else 0) C HC) as (c & Ec & Hc).
  exists (repP LOGQ (2 ^ Z.of_nat L) c), c. split.
  { unfold conv_poly, conv_call. rewrite (conv_L_word LOGQ HW), E. cbn [bind]. rewrite Ec. reflexivity. }
  split; [apply repP_holds; lia|]. intros i s Hi Hs. apply signed_cent in Hs; auto. destruct (Hc i Hi) as [H1 H2].
  assert (Hcent : forall x, (x = 0 \/ x = 1) -> cent LOGQ x = x).
  { intros x Hx. apply cent_small; [lia|]. assert (2 ^ 60 <= 2 ^ (LOGQ - 1)) by (apply Z.pow_le_mono_r; lia). lia. }
  assert (Hw1 : forall m j, 0 <= j < 3 -> icrt_word LOGQ (if m =? 0 then 1 else 0) (qtab j) =[qtab j]= (if m =? 0 then 1 else 0)).
  { intros m j Hj. rewrite (icrt_word_one LOGQ _ j HW Hj). pose proof (qtab_entry j ltac:(lia)) as [_ Hq].
    destruct (m =? 0); rewrite Hcent by auto; destruct (Z.ltb_spec 1 (- qtab j)), (Z.ltb_spec 0 (- qtab j)); try lia; reflexivity. }
  assert (H3 : forall j, 0 <= j < 3 -> c i =[qtab j]= s + (if s <? - qtab j then 2 ^ 64 else 0)).
  { intros j Hj. rewrite (H2 j Hj). rewrite (negconv_eqq (qtab j) (2 ^ Z.of_nat L) _ (fun k => icrt_word LOGQ (a k) (qtab j)) _ (fun k => if k =? 0 then 1 else 0)); auto; try reflexivity.
    rewrite negconv_one_r by auto. rewrite Hs. apply icrt_word_one; auto. }
  assert (Hsb : - 2 ^ 63 <= s < 2 ^ 63).
  { pose proof (cent_bounds LOGQ (a i) HQ). assert (Hp : 2 ^ (LOGQ - 1) <= 2 ^ 63) by (apply Z.pow_le_mono_r; lia). lia. }
  assert (EP : Pq 3 qtab = 0xffffffffffc0001 * 0xfffffffff840001 * 0x1000000000980001) by (vm_compute; reflexivity).
  assert (Hq : qtab 0 = 0xffffffffffc0001 /\ qtab 1 = 0xfffffffff840001 /\ qtab 2 = 0x1000000000980001) by (repeat split; vm_compute; reflexivity).
  destruct Hq as (q0 & q1 & q2). split.
  - intros Hn. unfold between_primes in Hn.
    assert (Ei : c i = lifted LOGQ (a i)).
    { apply (crt_unique 3 qtab (qtab_moduli 3 ltac:(lia))); auto.
      - intros j Hj. rewrite (H3 j Hj). unfold lifted. rewrite <- Hs. assert (Hm : 0xfffffffff840001 <= qtab j <= 0x1000000000980001).
        { assert (Hj3 : j = 0 \/ j = 1 \/ j = 2) by lia. destruct Hj3 as [->|[->| ->]]; lia. }
        destruct (Z.ltb_spec s (- qtab j)); destruct (Z.ltb_spec s (- 0x1000000000980001)); try lia; reflexivity.
      - pose proof (lifted_bounds LOGQ (a i) HW). rewrite EP. lia. }
    rewrite Ei, lifted_congr by auto. rewrite Hs. symmetry. apply cent_congr. auto.
  - intros Hb. unfold between_primes in Hb.
    assert (Ei : c i = s + excess s).
    { apply (crt_unique 3 qtab (qtab_moduli 3 ltac:(lia))); auto.
      - intros j Hj. rewrite (H3 j Hj). constructor. rewrite Z.add_mod, (Z.add_mod s (excess s)) by (pose proof (qtab_entry j ltac:(lia)); lia).
        f_equal. f_equal. unfold excess. assert (Hj3 : j = 0 \/ j = 1 \/ j = 2) by lia.
        destruct Hj3 as [->|[->| ->]]; rewrite ?q0, ?q1, ?q2; destruct (Z.ltb_spec s (- 0xffffffffffc0001)); 
          repeat match goal with |- context [s <? ?x] => destruct (Z.ltb_spec s x) end; try lia; vm_compute; reflexivity.
      - rewrite EP. unfold excess. destruct (Z.ltb_spec s (- 0xffffffffffc0001)); lia. }
    rewrite Ei. split; [reflexivity|]. intros C1.
    assert (Hd : excess s mod 2 ^ 61 = 0).
    { assert (Hz : (s + excess s - s) mod 2 ^ LOGQ = 0) by (rewrite Zminus_mod, C1, Z.sub_diag; reflexivity).
      replace (s + excess s - s) with (excess s) in Hz by lia. apply Z.mod_divide in Hz; [|assert (0 < 2 ^ LOGQ) by (apply Z.pow_pos_nonneg; lia); lia].
      apply Z.mod_divide; [lia|]. apply Z.divide_trans with (2 ^ LOGQ); auto. exists (2 ^ (LOGQ - 61)). rewrite <- Z.pow_add_r by lia. f_equal. lia. }
    unfold excess in Hd. destruct (s <? - 0xffffffffffc0001); vm_compute in Hd; discriminate.
Qed.

(** Coefficients far below minus the primes: (-2^62) (3 - X) = -3 2^62 + 2^62 X modulo 2^64. *)
Example C28_case_outside : forall i s, 0 <= i < 2 ^ 1 -> signed 64 (coef [- 2 ^ 62; 0] i) s \/ signed 64 (coef [3; -1] i) s -> ~ between_primes s.
Proof.
  intros i s Hi H. assert (Hc : i = 0 \/ i = 1) by lia. unfold between_primes.
  destruct Hc as [->| ->]; destruct H as [H|H]; apply signed_cent in H; try lia; subst s; vm_compute; intros [H1 H2]; try discriminate; apply H1; reflexivity.
Qed.
Example C28_case_between : between_primes (- 2 ^ 60) /\ signed 61 (2 ^ 60) (- 2 ^ 60).
Proof. split; [unfold between_primes; lia|]. split; [lia|]. exists (-1). reflexivity. Qed.

