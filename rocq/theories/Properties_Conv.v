(** Properties of the CRT and of the convolutions: C12, C24-C29, C31-C33. *)
From Coq Require Import ZArith List Bool Lia Znumtheory.
From Verif Require Import Base BaseFacts ZQ ZQFacts ZQFacts2 SpecZQ SpecZQFacts Mod NTT NTTFacts CRT RQ Conv Sums SpecPoly
  CRTFacts RQFacts SpecPolyFacts PrimeTable ConvFacts Properties_NTT.
Import ListNotations.
Open Scope Z_scope.

(** ** C12 *)
Theorem C12_cmpge : forall LOGQ A B u v, 1 <= LOGQ -> stores LOGQ A u -> stores LOGQ B v ->
  cmpge LOGQ A B = Ok (v <=? u).
Proof.
  intros LOGQ A B u v HQ HA HB. apply stores_raw in HA, HB; auto. destruct HA as [-> HA], HB as [-> HB].
  apply cmpge_raw; auto.
Qed.
Example C12_case : cmpge 100 [Some 5; Some 7] [Some 6; Some 7] = Ok false /\ cmpge 100 [Some 5; Some 8] [Some 6; Some 7] = Ok true.
Proof. split; vm_compute; reflexivity. Qed.

(** ** Chinese remaindering *)
Definition crt_moduli (qs : list Z) : Prop :=
  Forall prime qs /\ Forall (fun q => q < 2 ^ 64) qs /\ NoDup qs /\ Z.of_nat (length qs) < 2 ^ 31.
Definition product (l : list Z) : Z := fold_right Z.mul 1 l.

Lemma crt_moduli_ok qs : crt_moduli qs -> moduli (Z.of_nat (length qs)) (coef qs).
Proof.
  intros (Hp & Hw & Hd & Hl). split; [lia|]. split.
  - intros i Hi. rewrite Forall_forall in Hp, Hw.
    assert (In (coef qs i) qs) by (apply nth_In; lia). split; [auto|]. unfold W. apply Hw. auto.
  - intros i j Hi Hj E. unfold coef in E. apply (proj1 (NoDup_nth qs 0) Hd) in E; lia.
Qed.
Lemma prodn_acc n : forall f x, fold_left (fun a k => a * f (Z.of_nat k)) (seq 0 n) x = x * prodn n f.
Proof.
  induction n as [|n IH]; intros f x.
  - cbn. lia.
  - rewrite seq_S, fold_left_app, IH. cbn [fold_left]. replace (prodn (S n) f) with (prodn n f * f (Z.of_nat n)); [cbn; lia|].
    reflexivity.
Qed.
Lemma zprod_shift n f : 0 <= n -> zprod (n + 1) f = f 0 * zprod n (fun i => f (i + 1)).
Proof.
  intros Hn. revert n Hn. apply natlike_ind.
  - rewrite zprod_S by lia. change (zprod 0 f) with 1. change (zprod 0 (fun i => f (i + 1))) with 1. change (f 0) with (f 0). lia.
  - intros n Hn IH. unfold Z.succ. rewrite (zprod_S (n + 1)) by lia. rewrite IH. rewrite (zprod_S n) by lia. ring.
Qed.
Lemma product_zprod qs : product qs = zprod (Z.of_nat (length qs)) (coef qs).
Proof.
  induction qs as [|q qs IH]; [reflexivity|]. cbn [product fold_right length]. fold (product qs). rewrite IH.
  rewrite Nat2Z.inj_succ. unfold Z.succ. rewrite zprod_shift by lia. change (coef (q :: qs) 0) with q. f_equal.
  apply zprod_ext. intros i Hi. unfold coef. replace (Z.to_nat (i + 1)) with (S (Z.to_nat i)) by lia. reflexivity.
Qed.
Lemma words_len qs : map (@Some Z) qs = wtab (Z.of_nat (length qs)) (coef qs).
Proof. apply words_tab. lia. Qed.
Lemma crt_new_list qs : crt_moduli qs ->
  exists M, crt_new (Z.of_nat (length qs)) (map Some qs) = Ok M /\ crt_tables (Z.of_nat (length qs)) (coef qs) M.
Proof.
  intros H. rewrite words_len. unfold wtab. apply crt_new_ok; [apply crt_moduli_ok; auto|lia|auto].
Qed.

(** ** C24: residues of a signed value.  The code does not reduce one-word values. *)
Theorem C24_icrt_partial : forall qs, crt_moduli qs ->
  exists M, crt_new (Z.of_nat (length qs)) (map Some qs) = Ok M /\
    forall LOGQ A v s D, 1 <= LOGQ -> holds LOGQ A v -> signed LOGQ v s -> length D = length qs ->
      64 < LOGQ \/ Forall (fun q => - q <= s) qs ->
      exists r, crt_icrt M (Z.of_nat (length qs)) LOGQ A D = Ok (map Some r) /\ length r = length qs /\ Forall is_word r /\
        forall i, 0 <= i < Z.of_nat (length qs) -> (coef r i - s) mod coef qs i = 0.
Proof.
  intros qs Hqs. destruct (crt_new_list qs Hqs) as (M & E & HT). exists M. split; auto.
  intros LOGQ A v s D HQ HA Hs HD Hc. apply holds_rep in HA; auto. subst A. apply signed_cent in Hs; auto. subst s.
  set (L := Z.of_nat (length qs)) in *. pose proof (crt_moduli_ok qs Hqs) as HM. fold L in HM.
  exists (tab L (fun i => icrt_word LOGQ v (coef qs i))).
  split; [|split; [|split]].
  - rewrite <- wtab_words. apply crt_icrt_ok; auto; [apply HT|]. lia.
  - rewrite tab_length. lia.
  - apply Forall_forall. intros x Hx. unfold tab in Hx. apply in_map_iff in Hx. destruct Hx as (k & <- & Hk).
    apply in_seq in Hk. apply icrt_word_range; auto. pose proof (mod_pos L (coef qs) HM (Z.of_nat k)). lia.
  - intros i Hi. rewrite coef_tab by auto. pose proof (mod_pos L (coef qs) HM i Hi) as Hq.
    assert (He : icrt_word LOGQ v (coef qs i) =[coef qs i]= cent LOGQ v).
    { apply icrt_word_ok; auto; [lia|]. destruct Hc as [Hc|Hc]; [left; lia|right]. rewrite Forall_forall in Hc. apply Hc. apply nth_In. lia. }
    apply eqq_eq in He. rewrite Zminus_mod, He, Z.sub_diag. apply Zmod_0_l.
Qed.
Lemma small_prime p : forallb (fun n => Z.gcd n p =? 1) (map Z.of_nat (seq 1 (Z.to_nat (p - 1)))) = true -> 1 < p -> prime p.
Proof.
  intros H Hp. constructor; auto. intros n Hn. rewrite forallb_forall in H. apply Zgcd_1_rel_prime. apply Z.eqb_eq. apply H.
  apply in_map_iff. exists (Z.to_nat n). split; [lia|]. apply in_seq. lia.
Qed.
Example C24_case : crt_moduli [97; 193; 257].
Proof.
  split; [|split; [|split]].
  - apply Forall_forall. intros p [<-|[<-|[<-|[]]]]; apply small_prime; try lia; vm_compute; reflexivity.
  - repeat constructor; lia.
  - repeat constructor; cbn; intuition lia.
  - cbn. lia.
Qed.
Definition ex_icrt (LOGQ : Z) (A : arr) : res arr := M <- crt_new 3 (map Some [97; 193; 257]) ;; crt_icrt M 3 LOGQ A (fresh 3).
Example C24_case_value : ex_icrt 100 [Some (2 ^ 64 - 1000); Some (2 ^ 36 - 1)] = Ok [Some 67; Some 158; Some 28].
Proof. vm_compute. reflexivity. Qed.
(** -100 modulo 97 and 257, LOGQ = 64: the answer for 97 is the word 2^64 - 3. *)
Theorem C24_icrt_refuted : exists qs M LOGQ A v s r i, crt_moduli qs /\ 1 <= LOGQ /\
  crt_new (Z.of_nat (length qs)) (map Some qs) = Ok M /\ holds LOGQ A v /\ signed LOGQ v s /\
  crt_icrt M (Z.of_nat (length qs)) LOGQ A (fresh (Z.of_nat (length qs))) = Ok (map Some r) /\
  0 <= i < Z.of_nat (length qs) /\ (coef r i - s) mod coef qs i <> 0.
Proof.
  destruct (crt_new_list [97; 193; 257] C24_case) as (M & E & _).
  exists [97; 193; 257], M, 64, [Some (2 ^ 64 - 100)], (-100), (-100), [2 ^ 64 - 3; 93; 157], 0.
  split; [apply C24_case|]. split; [lia|]. split; [exact E|]. split; [vm_compute; auto|].
  split. { split; [lia|]. exists 0. reflexivity. }
  split.
  - assert (H : ex_icrt 64 [Some (2 ^ 64 - 100)] = Ok (map Some [2 ^ 64 - 3; 93; 157])) by (vm_compute; reflexivity).
    unfold ex_icrt in H. change (Z.of_nat (length [97; 193; 257])) with 3 in E. rewrite E in H. exact H.
  - split; [cbn; lia|]. vm_compute. discriminate.
Qed.

(** ** C25: reconstruction *)
Theorem C25_crt : forall qs, crt_moduli qs ->
  exists M, crt_new (Z.of_nat (length qs)) (map Some qs) = Ok M /\
    forall LOGQ a D, 1 <= LOGQ -> object LOGQ D -> length a = length qs -> Forall is_word a ->
      (exists c, - product qs <= 2 * c < product qs /\
         forall i, 0 <= i < Z.of_nat (length qs) -> (c - coef a i) mod coef qs i = 0) /\
      forall c, - product qs <= 2 * c < product qs ->
        (forall i, 0 <= i < Z.of_nat (length qs) -> (c - coef a i) mod coef qs i = 0) ->
        exists A, crt_crt M (Z.of_nat (length qs)) LOGQ (map Some a) D = Ok A /\ holds LOGQ A c.
Proof.
  intros qs Hqs. destruct (crt_new_list qs Hqs) as (M & E & HT). exists M. split; auto.
  intros LOGQ a D HQ HD Ha Hw.
  set (L := Z.of_nat (length qs)) in *. pose proof (crt_moduli_ok qs Hqs) as HM. fold L in HM.
  assert (EP : product qs = Pq L (coef qs)) by (apply product_zprod).
  destruct (crt_crt_ok L (coef qs) M LOGQ (coef a) D HM HT HQ) as (c' & Ec & Hc' & Hr').
  { apply object_length; auto. }
  { intros i Hi. apply (Forall_coef a L); auto. lia. }
  rewrite EP. split.
  - exists c'. split; auto. intros i Hi. specialize (Hr' i Hi). apply eqq_eq in Hr'.
    rewrite Zminus_mod, Hr', Z.sub_diag. apply Zmod_0_l.
  - intros c Hc Hr. rewrite (words_tab a L) by lia. exists (rep LOGQ c'). split; auto. apply holds_rep; auto. f_equal.
    symmetry. apply (crt_unique L (coef qs) HM); auto. intros i Hi. rewrite (Hr' i Hi). constructor.
    pose proof (mod_pos L (coef qs) HM i Hi).
    specialize (Hr i Hi). apply Z.mod_divide in Hr; [|lia]. destruct Hr as [z Hz].
    replace c with (coef a i + z * coef qs i) by lia. apply Z_mod_plus_full.
Qed.

(** icrt followed by crt is the identity on values that fit. *)
Theorem C25_round_trip : forall qs, crt_moduli qs ->
  exists M, crt_new (Z.of_nat (length qs)) (map Some qs) = Ok M /\
    forall LOGQ A v D E, 64 < LOGQ -> 2 ^ LOGQ < product qs -> holds LOGQ A v -> length D = length qs -> object LOGQ E ->
      (r <- crt_icrt M (Z.of_nat (length qs)) LOGQ A D ;; crt_crt M (Z.of_nat (length qs)) LOGQ r E) = Ok A.
Proof.
  intros qs Hqs. destruct (crt_new_list qs Hqs) as (M & E & HT). exists M. split; auto.
  intros LOGQ A v D F HQ HP HA HD HF. apply holds_rep in HA; [|lia]. subst A.
  set (L := Z.of_nat (length qs)) in *. pose proof (crt_moduli_ok qs Hqs) as HM. fold L in HM.
  assert (EP : product qs = Pq L (coef qs)) by (apply product_zprod).
  rewrite (crt_icrt_ok L (coef qs)) by (auto; try lia; apply HT). cbn [bind].
  destruct (crt_crt_ok L (coef qs) M LOGQ (fun i => icrt_word LOGQ v (coef qs i)) F HM HT) as (c & Ec & Hc & Hr); [lia|apply object_length; auto; lia| |].
  { intros i Hi. pose proof (mod_pos L (coef qs) HM i Hi). apply icrt_word_range; lia. }
  rewrite Ec. f_equal. apply rep_eqW.
  replace c with (cent LOGQ v). { apply cent_congr. lia. }
  symmetry. apply (crt_unique L (coef qs) HM); auto.
  - intros i Hi. rewrite (Hr i Hi). pose proof (mod_pos L (coef qs) HM i Hi). apply icrt_word_ok; lia.
  - pose proof (cent_bounds LOGQ v ltac:(lia)) as Hb.
    replace (2 ^ LOGQ) with (2 * 2 ^ (LOGQ - 1)) in HP by (rewrite <- Z.pow_succ_r by lia; f_equal; lia). lia.
Qed.
Definition ex_crt (LOGQ : Z) (r : list Z) : res arr :=
  M <- crt_new 3 (map Some [97; 193; 257]) ;; crt_crt M 3 LOGQ (map Some r) (fresh ((LOGQ + 63) / 64)).
Example C25_case : ex_crt 100 [67; 158; 28 + 257] = Ok [Some (2 ^ 64 - 1000); Some (2 ^ 36 - 1)].
Proof. vm_compute. reflexivity. Qed.

(** ** C26: the table *)
Theorem C26_table : length Q_primes = 102%nat /\ NoDup Q_primes /\ Forall prime Q_primes /\
  Forall (fun q => q mod 2 ^ 18 = 1 /\ 2 ^ 59 < q < 2 ^ 61) Q_primes /\
  forall LOGQ N, 1 <= LOGQ <= 3051 -> 1 <= N <= 2 ^ 17 ->
    conv_L LOGQ = (2 * LOGQ + 76) / 60 /\ 1 <= conv_L LOGQ <= 102 /\
    N * 2 ^ (2 * LOGQ - 1) < product (firstn (Z.to_nat (conv_L LOGQ)) Q_primes).
Proof.
  split; [apply Q_primes_length|]. split; [apply Q_primes_nodup|]. split; [apply Q_primes_prime|]. split.
  { apply Forall_forall. intros x Hx. apply In_nth_error in Hx. destruct Hx as [k Hk].
    assert (Hl : (k < length Q_primes)%nat) by (apply nth_error_Some; congruence). rewrite Q_primes_length in Hl.
    replace x with (qtab (Z.of_nat k)); [apply qtab_entry; lia|]. unfold qtab. rewrite Nat2Z.id. apply nth_error_nth. auto. }
  intros LOGQ N HQ HN. pose proof (conv_L_bounds LOGQ ltac:(lia)) as HL.
  split. { unfold conv_L. rewrite Z.quot_div_nonneg by lia. f_equal. lia. }
  split; [lia|]. rewrite product_zprod.
  rewrite firstn_length, Q_primes_length, Nat.min_l by lia. rewrite Z2Nat.id by lia.
  rewrite (zprod_ext _ _ qtab).
  - pose proof (table_enough LOGQ 17 HQ ltac:(lia)) as Ht. unfold Pq in Ht. change (2 ^ Z.of_nat 17) with (2 ^ 17) in Ht.
    apply Z.le_lt_trans with (2 ^ 17 * 2 ^ (2 * LOGQ - 1)); auto. apply Z.mul_le_mono_nonneg_r; lia.
  - intros i Hi. unfold coef, qtab. rewrite <- (firstn_skipn (Z.to_nat (conv_L LOGQ)) Q_primes) at 2.
    rewrite app_nth1; auto. rewrite firstn_length, Q_primes_length. lia.
Qed.
Example C26_case : conv_L 3051 = 102 /\ conv_L 1450 = 49.
Proof. split; reflexivity. Qed.
(** The bound 3051 is exact: beyond it the constructor reads past the end of the table. *)
Theorem C26_table_limit : forall N, conv_poly 3052 N [] [] [] = Undef.
Proof.
  intros N. unfold conv_poly, conv_call.
  assert (E : crt_new (conv_L 3052) (map Some Q_primes) = Undef) by (vm_compute; reflexivity).
  unfold conv_new. rewrite E. reflexivity.
Qed.

(** ** C27: the product of polynomials *)
Definition widths (LOGQ : Z) : Prop := 1 <= LOGQ <= 60 \/ 65 <= LOGQ <= 3051.

Theorem C27_conv : forall k LOGQ A B C a b, 1 <= k <= 17 -> widths LOGQ ->
  holdsP LOGQ (2 ^ k) A a -> holdsP LOGQ (2 ^ k) B b -> objectP LOGQ (2 ^ k) C ->
  exists D, conv_poly LOGQ (2 ^ k) A B C = Ok D /\ holdsP LOGQ (2 ^ k) D (negconv (2 ^ k) a b).
Proof.
  intros k LOGQ A B C a b Hk HW HA HB HC. rewrite <- (Z2Nat.id k) in * by lia. set (L := Z.to_nat k) in *.
  assert (HL : (1 <= L <= 17)%nat) by lia. clearbody L. clear k Hk. assert (HQ : 1 <= LOGQ) by (unfold widths in HW; lia).
  assert (HN : 0 <= 2 ^ Z.of_nat L) by (apply Z.pow_nonneg; lia).
  apply holdsP_rep in HA, HB; auto. subst. apply objectP_obj in HC; auto.
  eexists. split; [apply (conv_poly_ok LOGQ L a b C HW HL HC)|]. apply repP_holds; auto.
Qed.

(** Any number of earlier calls of the same instance, on any operands, makes no difference. *)
Inductive history (LOGQ N : Z) : option conv_t -> Prop :=
| hist_start : history LOGQ N None
| hist_call cache A B C cache' D : history LOGQ N cache -> conv_call LOGQ N cache A B C = Ok (cache', D) ->
    history LOGQ N cache'.

Lemma history_good LOGQ N cache : history LOGQ N cache -> good_cache LOGQ N cache.
Proof.
  induction 1 as [|cache A B C cache' D Hh IH E]; [exact I|]. unfold conv_call in E. destruct cache as [M|].
  - cbn [bind] in E. destruct (CONV_conv _ _ _ _ _ _ _); cbn [bind] in E; try discriminate. injection E as <- _. exact IH.
  - destruct (conv_new (conv_L LOGQ) N (map Some Q_primes)) as [M| | |] eqn:EM; cbn [bind] in E; try discriminate.
    destruct (CONV_conv _ _ _ _ _ _ _); cbn [bind] in E; try discriminate. injection E as <- _. exact EM.
Qed.

Theorem C27_conv_history : forall k LOGQ cache A B C a b, 1 <= k <= 17 -> widths LOGQ -> history LOGQ (2 ^ k) cache ->
  holdsP LOGQ (2 ^ k) A a -> holdsP LOGQ (2 ^ k) B b -> objectP LOGQ (2 ^ k) C ->
  exists cache' D, conv_call LOGQ (2 ^ k) cache A B C = Ok (cache', D) /\ holdsP LOGQ (2 ^ k) D (negconv (2 ^ k) a b).
Proof.
  intros k LOGQ cache A B C a b Hk HW Hh HA HB HC. apply history_good in Hh. rewrite <- (Z2Nat.id k) in * by lia. set (L := Z.to_nat k) in *.
  assert (HL : (1 <= L <= 17)%nat) by lia. clearbody L. clear k Hk. assert (HQ : 1 <= LOGQ) by (unfold widths in HW; lia).
  assert (HN : 0 <= 2 ^ Z.of_nat L) by (apply Z.pow_nonneg; lia).
  apply holdsP_rep in HA, HB; auto. subst. apply objectP_obj in HC; auto.
  destruct (conv_call_ok LOGQ L cache a b C HW HL Hh HC) as (M & E & _).
  eexists _, _. split; [exact E|]. apply repP_holds; auto.
Qed.

(** (1 + 2X)(3 - X) = 5 + 5X in Z_{2^70}[X]/(X^2+1). *)
Definition ex_A := [[Some 1; Some 0]; [Some 2; Some 0]].
Definition ex_B := [[Some 3; Some 0]; [Some (2 ^ 64 - 1); Some 63]].
Example C27_case_hyps : holdsP 70 (2 ^ 1) ex_A (coef [1; 2]) /\ holdsP 70 (2 ^ 1) ex_B (coef [3; -1]) /\
  objectP 70 (2 ^ 1) [[None; None]; [None; None]].
Proof.
  repeat split; try (repeat constructor; reflexivity);
  intros; assert (Hi : i = 0 \/ i = 1) by lia; destruct Hi as [-> | ->]; cbn in *; injection H0 as <-; reflexivity.
Qed.
Example C27_case : forall i, 0 <= i < 2 -> negconv (2 ^ 1) (coef [1; 2]) (coef [3; -1]) i = 5.
Proof. intros i Hi. assert (H : i = 0 \/ i = 1) by lia. destruct H as [-> | ->]; reflexivity. Qed.

(** ** C28: one-word moduli of 61 to 64 bits *)
Theorem C28_conv_word_partial : forall k LOGQ A B C a b, 1 <= k <= 17 -> 61 <= LOGQ <= 64 ->
  holdsP LOGQ (2 ^ k) A a -> holdsP LOGQ (2 ^ k) B b -> objectP LOGQ (2 ^ k) C ->
  (forall i s, 0 <= i < 2 ^ k -> signed LOGQ (a i) s \/ signed LOGQ (b i) s -> - 0xfffffffff840001 <= s) ->
  exists D, conv_poly LOGQ (2 ^ k) A B C = Ok D /\ holdsP LOGQ (2 ^ k) D (negconv (2 ^ k) a b).
Proof.
  intros k LOGQ A B C a b Hk HW HA HB HC Hs. rewrite <- (Z2Nat.id k) in * by lia. set (L := Z.to_nat k) in *.
  assert (HL : (1 <= L <= 17)%nat) by lia. clearbody L. clear k Hk. assert (HQ : 1 <= LOGQ) by lia.
  assert (HN : 0 <= 2 ^ Z.of_nat L) by (apply Z.pow_nonneg; lia).
  apply holdsP_rep in HA, HB; auto. subst. apply objectP_obj in HC; auto.
  destruct (conv_new_table LOGQ L ltac:(lia) HL) as (M & E & HM).
  assert (EL : conv_L LOGQ = 3).
  { assert (Hc : LOGQ = 61 \/ LOGQ = 62 \/ LOGQ = 63 \/ LOGQ = 64) by lia. destruct Hc as [->|[->|[->| ->]]]; reflexivity. }
  assert (Hw : forall x j, 0 <= j < conv_L LOGQ -> - 0xfffffffff840001 <= cent LOGQ x ->
                icrt_word LOGQ x (qtab j) =[qtab j]= cent LOGQ x).
  { intros x j Hj Hx. pose proof (qtab_entry j ltac:(lia)). apply icrt_word_ok; auto; [unfold W; lia|]. right.
    rewrite EL in Hj. assert (Hc : j = 0 \/ j = 1 \/ j = 2) by lia.
    assert (Hm : 0xfffffffff840001 <= qtab j) by (destruct Hc as [->|[->| ->]]; vm_compute; discriminate). lia. }
  eexists. split; [|apply repP_holds; auto].
  unfold conv_poly, conv_call. rewrite E. cbn [bind].
  rewrite (CONV_exact (conv_L LOGQ) L qtab M LOGQ); auto; try lia.
  - apply qtab_moduli. lia.
  - intros i j Hi Hj. apply Hw; auto. apply (Hs i); auto. left. apply signed_cent; auto.
  - intros i j Hi Hj. apply Hw; auto. apply (Hs i); auto. right. apply signed_cent; auto.
  - apply table_enough; lia || auto.
Qed.

(** -2^60 times 1: two of the three primes used are below 2^60 and one above. *)
Definition c28_c : Z := 689081978613860443069070364174972059976142293617300286.
Theorem C28_conv_word_refuted : forall LOGQ, 61 <= LOGQ <= 64 -> exists A B C a b D,
  holdsP LOGQ (2 ^ 1) A a /\ holdsP LOGQ (2 ^ 1) B b /\ objectP LOGQ (2 ^ 1) C /\
  conv_poly LOGQ (2 ^ 1) A B C = Ok D /\ ~ holdsP LOGQ (2 ^ 1) D (negconv (2 ^ 1) a b).
Proof.
  intros LOGQ HQ. set (a := fun i => if i =? 0 then - 2 ^ 60 else 0). set (b := fun i => if i =? 0 then 1 else 0).
  destruct (conv_new_table LOGQ 1 ltac:(lia) ltac:(lia)) as (M & E & HM).
  assert (EL : conv_L LOGQ = 3).
  { assert (Hc : LOGQ = 61 \/ LOGQ = 62 \/ LOGQ = 63 \/ LOGQ = 64) by lia. destruct Hc as [->|[->|[->| ->]]]; reflexivity. }
  rewrite EL in E, HM.
  destruct (CONV_gen 3 1 qtab M LOGQ (qtab_moduli 3 ltac:(lia)) HM ltac:(lia) ltac:(lia) a b (rq_new LOGQ 2) (objP_new LOGQ 2))
    as (c & Ec & Hc).
  exists (repP LOGQ 2 a), (repP LOGQ 2 b), (rq_new LOGQ 2), a, b, (repP LOGQ 2 c).
  split; [apply repP_holds; lia|]. split; [apply repP_holds; lia|]. split.
  { split; [unfold rq_new; rewrite repeat_length; lia|]. unfold rq_new. apply Forall_forall. intros x Hx. apply repeat_spec in Hx. subst x.
    unfold object, zq_new. rewrite fresh_length. unfold len. rewrite Z.quot_div_nonneg by lia. pose proof (Z.div_pos (LOGQ + 63) 64). lia. }
  split.
  { unfold conv_poly, conv_call. rewrite EL. change (2 ^ Z.of_nat 1) with (2 ^ 1) in *. rewrite E. cbn [bind].
    change (2 ^ 1) with 2 in *. rewrite Ec. reflexivity. }
  intros HD. apply holdsP_rep in HD; try lia. change (2 ^ 1) with 2 in HD. apply repP_inj with (i := 0) in HD; try lia.
  destruct (Hc 0) as [H1 H2]; [cbn; lia|].
  assert (Hcent : forall x, - 2 ^ 60 <= x < 2 ^ 60 -> cent LOGQ x = x).
  { intros x Hx. apply cent_small; [lia|]. assert (2 ^ 60 <= 2 ^ (LOGQ - 1)) by (apply Z.pow_le_mono_r; lia). lia. }
  assert (Hword : forall x j, - 2 ^ 60 <= x < 2 ^ 60 -> icrt_word LOGQ x (qtab j) = if x <? 0 then wsub (qtab j) (- x) else x).
  { intros x j Hx. unfold icrt_word. rewrite Hcent by auto. replace (len LOGQ) with 1. reflexivity.
    unfold len. rewrite Z.quot_div_nonneg by lia. apply Z.div_unique with (LOGQ + 63 - 64); lia. }
  assert (Ec0 : c 0 = c28_c).
  { apply (crt_unique 3 qtab (qtab_moduli 3 ltac:(lia))); auto.
    - intros j Hj. rewrite (H2 j Hj). change (2 ^ Z.of_nat 1) with 2.
      replace (negconv 2 _ _ 0) with (wsub (qtab j) (2 ^ 60)).
      + assert (Hc' : j = 0 \/ j = 1 \/ j = 2) by lia. destruct Hc' as [->|[->| ->]]; constructor; vm_compute; reflexivity.
      + unfold negconv. change (zsum 2) with (zsum (0 + 1 + 1)). rewrite !zsum_S by lia. rewrite zsum_nil by lia.
        rewrite !Hword by (unfold a, b; cbn; lia). unfold a, b. cbn -[wsub qtab Z.pow]. destruct (Z.ltb_spec (- 2 ^ 60) 0); [|lia]. rewrite Z.opp_involutive. lia.
    - split; [vm_compute; discriminate|vm_compute; reflexivity]. }
  rewrite Ec0 in HD. replace (negconv 2 a b 0) with (- 2 ^ 60) in HD by (vm_compute; reflexivity).
  apply (f_equal (fun x => x mod 2 ^ 61)) in HD.
  assert (Hd : forall x, (x mod 2 ^ LOGQ) mod 2 ^ 61 = x mod 2 ^ 61).
  { intros x. symmetry. apply Zmod_div_mod; try lia; try (apply Z.pow_pos_nonneg; lia).
    exists (2 ^ (LOGQ - 61)). rewrite <- Z.pow_add_r by lia. f_equal. lia. }
  rewrite !Hd in HD. vm_compute in HD. discriminate.
Qed.

(** ** C29: output in the place of an operand *)
Theorem C29_conv_aliasing : forall k LOGQ cache h ia ib ic A B C a b, 1 <= k <= 17 -> widths LOGQ -> history LOGQ (2 ^ k) cache ->
  lget h ia = Ok A -> lget h ib = Ok B -> lget h ic = Ok C ->
  holdsP LOGQ (2 ^ k) A a -> holdsP LOGQ (2 ^ k) B b -> objectP LOGQ (2 ^ k) C ->
  exists cache' h' D, conv_mem LOGQ (2 ^ k) cache h ia ib ic = Ok (cache', h') /\
    lget h' ic = Ok D /\ holdsP LOGQ (2 ^ k) D (negconv (2 ^ k) a b) /\
    length h' = length h /\ forall j, j <> ic -> lget h' j = lget h j.
Proof.
  intros k LOGQ cache h ia ib ic A B C a b Hk HW Hh Ea Eb Ec HA HB HC. apply history_good in Hh.
  rewrite <- (Z2Nat.id k) in * by lia. set (L := Z.to_nat k) in *.
  assert (HL : (1 <= L <= 17)%nat) by lia. clearbody L. clear k Hk. assert (HQ : 1 <= LOGQ) by (unfold widths in HW; lia).
  assert (HN : 0 <= 2 ^ Z.of_nat L) by (apply Z.pow_nonneg; lia).
  apply holdsP_rep in HA, HB; auto. subst. apply objectP_obj in HC; auto.
  destruct (conv_mem_ok LOGQ L cache h ia ib ic a b C HW HL Hh Ea Eb Ec HC) as (M & E & _).
  assert (Hr : 0 <= ic < Z.of_nat (length h)).
  { unfold lget in Ec. destruct (Z.leb_spec 0 ic); [|discriminate]. destruct (nth_error h (Z.to_nat ic)) eqn:En; [|discriminate].
    assert (Z.to_nat ic < length h)%nat by (apply nth_error_Some; congruence). lia. }
  eexists _, _, _. split; [exact E|]. split; [|split; [apply repP_holds; auto|split]].
  - unfold lget. destruct (Z.leb_spec 0 ic); [|lia]. rewrite nth_error_upd. rewrite Nat.eqb_refl.
    assert (El : (Z.to_nat ic <? length h)%nat = true) by (apply Nat.ltb_lt; lia). unfold poly in *. rewrite El. reflexivity.
  - apply upd_length.
  - intros j Hj. unfold lget. destruct (Z.leb_spec 0 j); auto. rewrite nth_error_upd. destruct (Nat.eqb_spec (Z.to_nat ic) (Z.to_nat j)); [lia|]. reflexivity.
Qed.

(** ** C31, C32: conv with an integer polynomial *)
Theorem C31_conv_ternary : forall LOGQ N s A C a, 1 <= LOGQ -> 1 <= N -> length s = Z.to_nat N ->
  Forall (fun x => x = -1 \/ x = 0 \/ x = 1) s -> holdsP LOGQ N A a -> objectP LOGQ N C ->
  exists D, conv_s LOGQ N (map Some s) A C = Ok D /\ holdsP LOGQ N D (negconv N (coef s) a).
Proof.
  intros LOGQ N s A C a HQ HN Hs Ht HA HC. apply holdsP_rep in HA; try lia. subst A. apply objectP_obj in HC; try lia.
  rewrite (words_tab s N) by auto. rewrite conv_s_ok by (auto; lia). eexists. split; [reflexivity|].
  replace (repP LOGQ N (negconv N (fun k => tern (coef s k)) a)) with (repP LOGQ N (negconv N (coef s) a)).
  { apply repP_holds; lia. }
  apply repP_ext. intros i Hi. f_equal. unfold negconv. apply zsum_ext. intros k Hk. f_equal.
  rewrite Forall_forall in Ht. destruct (Ht (coef s k)) as [->|[->| ->]]; auto. apply nth_In. lia.
Qed.
(** s = 1 - X + 0X^2 - X^3 times A = 5 + 7X + 11X^2 + 13X^3 modulo X^4+1. *)
Example C31_case : conv_s 66 4 (map Some [1; -1; 0; -1]) (map (fun x => [Some x; Some 0]) [5; 7; 11; 13]) (repeat [None; None] 4) =
  Ok [[Some 25; Some 0]; [Some 13; Some 0]; [Some 17; Some 0]; [Some (2 ^ 64 - 3); Some 3]].
Proof. vm_compute. reflexivity. Qed.

(** What the code computes for any integer polynomial: entries other than 0 and 1 count as -1. *)
Theorem C32_conv_integer_partial : forall LOGQ N s A C a, 1 <= LOGQ -> 1 <= N -> length s = Z.to_nat N ->
  holdsP LOGQ N A a -> objectP LOGQ N C ->
  exists D, conv_s LOGQ N (map Some s) A C = Ok D /\
    holdsP LOGQ N D (negconv N (fun k => if coef s k =? 0 then 0 else if coef s k =? 1 then 1 else -1) a).
Proof.
  intros LOGQ N s A C a HQ HN Hs HA HC. apply holdsP_rep in HA; try lia. subst A. apply objectP_obj in HC; try lia.
  rewrite (words_tab s N) by auto. rewrite conv_s_ok by (auto; lia). eexists. split; [reflexivity|]. apply repP_holds; lia.
Qed.
Theorem C32_conv_integer_refuted : exists LOGQ N s A C a D, 1 <= LOGQ /\ 1 <= N /\ length s = Z.to_nat N /\
  holdsP LOGQ N A a /\ objectP LOGQ N C /\ conv_s LOGQ N (map Some s) A C = Ok D /\ ~ holdsP LOGQ N D (negconv N (coef s) a).
Proof.
  exists 10, 1, [2], [[Some 3]], [[None]], (coef [3]), [[Some 1021]].
  split; [lia|]. split; [lia|]. split; [reflexivity|]. split; [|split; [|split; [vm_compute; reflexivity|]]].
  - split; [reflexivity|]. intros i A Hi E. assert (i = 0) by lia. subst. injection E as <-. vm_compute. auto.
  - split; [reflexivity|]. repeat constructor.
  - intros [_ H]. specialize (H 0 [Some 1021] ltac:(lia) eq_refl). vm_compute in H. destruct H as [_ H]. discriminate.
Qed.

(** ** C33: conv on int arrays *)
Theorem C33_conv_int : forall N s1 s2 D B1 B2, 1 <= N -> 0 <= B1 -> 0 <= B2 -> N * (B1 * B2) < 2 ^ 31 ->
  length s1 = Z.to_nat N -> length s2 = Z.to_nat N -> length D = Z.to_nat N ->
  Forall (fun x => Z.abs x <= B1) s1 -> Forall (fun x => Z.abs x <= B2) s2 ->
  exists s3, conv_int N (map Some s1) (map Some s2) D = Ok (map Some s3) /\ length s3 = Z.to_nat N /\
    forall i, 0 <= i < N -> coef s3 i = negconv N (coef s1) (coef s2) i /\ Z.abs (coef s3 i) <= N * (B1 * B2).
Proof.
  intros N s1 s2 D B1 B2 HN HB1 HB2 HB H1 H2 H3 F1 F2. rewrite Forall_forall in F1, F2.
  assert (G1 : forall i, 0 <= i < N -> Z.abs (coef s1 i) <= B1) by (intros i Hi; apply F1; apply nth_In; lia).
  assert (G2 : forall i, 0 <= i < N -> Z.abs (coef s2 i) <= B2) by (intros i Hi; apply F2; apply nth_In; lia).
  rewrite (words_tab s1 N), (words_tab s2 N) by auto.
  rewrite (conv_int_ok N (coef s1) (coef s2) D B1 B2) by auto. rewrite wtab_words. eexists. split; [reflexivity|].
  split; [apply tab_length|]. intros i Hi. rewrite coef_tab by auto. split; auto.
  unfold negconv. apply zsum_bound; [lia|]. intros k Hk. rewrite Z.abs_mul.
  apply Z.mul_le_mono_nonneg; try apply Z.abs_nonneg; auto.
  destruct (Z.leb_spec k i); [apply G2; lia|]. rewrite Z.abs_opp. apply G2. lia.
Qed.
(** Keys: no overflow and results of size at most N. *)
Theorem C33_conv_int_ternary : forall N s1 s2 D, 1 <= N <= 2 ^ 30 ->
  length s1 = Z.to_nat N -> length s2 = Z.to_nat N -> length D = Z.to_nat N ->
  Forall (fun x => x = -1 \/ x = 0 \/ x = 1) s1 -> Forall (fun x => x = -1 \/ x = 0 \/ x = 1) s2 ->
  exists s3, conv_int N (map Some s1) (map Some s2) D = Ok (map Some s3) /\ length s3 = Z.to_nat N /\
    forall i, 0 <= i < N -> coef s3 i = negconv N (coef s1) (coef s2) i /\ Z.abs (coef s3 i) <= N.
Proof.
  intros N s1 s2 D HN H1 H2 H3 F1 F2.
  destruct (C33_conv_int N s1 s2 D 1 1) as (s3 & E & Hl & Hs); auto; try lia.
  - eapply Forall_impl; [|exact F1]. cbn. lia.
  - eapply Forall_impl; [|exact F2]. cbn. lia.
  - exists s3. split; auto. split; auto. intros i Hi. destruct (Hs i Hi). split; auto. lia.
Qed.
Example C33_case : conv_int 4 (map Some [1; -1; 0; 1]) (map Some [1; 1; 1; -1]) (fresh 4) = Ok (map Some [-1; -1; 1; -1]).
Proof. vm_compute. reflexivity. Qed.
