(** C101: what mod_test, mul_test, crt_test and ntt_test print. *)
From Coq Require Import ZArith List Bool Lia Znumtheory.
From Verif Require Import Base BaseFacts ZQ ZQFacts ZQFacts2 SpecZQ SpecZQFacts Mod ModFacts NTT NTTFacts CRT RQ Conv Sums SpecPoly
  CRTFacts RQFacts SpecPolyFacts PrimeTable ConvFacts Properties_Mod Properties_NTT Properties_Conv.
From Verif Require Import TestProg.
Import ListNotations.
Open Scope Z_scope.

Lemma wsub_0 a b : is_word a -> is_word b -> (wsub a b = 0 <-> a = b).
Proof.
  unfold is_word, wsub, wrap. intros Ha Hb. split; [|intros ->; rewrite Z.sub_diag; reflexivity].
  intros E. apply Z.mod_divide in E; [|discriminate]. destruct E as [k E]. assert (k = 0) by nia. nia.
Qed.

(** mod_test prints 0 exactly when the expected number is the remainder of ah*2^64+al by q *)
Theorem C101_mod_test : forall al ah q expected, is_word al -> is_word ah -> 0 < q < 2 ^ 64 -> is_word expected ->
  exists d, mod_test mod_ al ah q expected = Ok d /\ mod_test mod_asm al ah q expected = Ok d /\ (d = 0 <-> expected = (ah * 2 ^ 64 + al) mod q).
Proof.
  intros al ah q ex H1 H2 H3 H4. destruct (C13_mod al ah q H1 H2 H3) as [E1 E2]. unfold mod_test. rewrite E1, E2. cbn [bind].
  eexists. split; [reflexivity|]. split; [reflexivity|]. apply wsub_0; auto. unfold is_word, W. pose proof (Z.mod_pos_bound (ah * 2 ^ 64 + al) q). lia.
Qed.
(** mod_test.cpp:7-10 *)
Example C101_mod_case : mod_test mod_ 2487277757547979106 16209862899231289696 8471933682407887875 3357710663169374592 = Ok 0.
Proof. vm_compute. reflexivity. Qed.

(** mul_test prints two zeros exactly when the expected words spell the product *)
Theorem C101_mul_test : forall a b lo hi, is_word a -> is_word b -> is_word lo -> is_word hi ->
  mul_test mul_ a b lo hi = mul_test mul_win a b lo hi /\ (mul_test mul_ a b lo hi = (0, 0) <-> hi * 2 ^ 64 + lo = a * b).
Proof.
  intros a b lo hi Ha Hb Hl Hh. destruct (C03_mul_u128 a b Ha Hb) as (l & h & E1 & E2 & Bl & Bh & E). unfold mul_test. rewrite E1, E2. split; [reflexivity|].
  assert (is_word l) by (unfold is_word, W; lia). assert (is_word h) by (unfold is_word, W; lia). split.
  - intros P. assert (P1 : wsub l lo = 0) by congruence. assert (P2 : wsub h hi = 0) by congruence. apply (proj1 (wsub_0 l lo H Hl)) in P1. apply (proj1 (wsub_0 h hi H0 Hh)) in P2. subst. exact E.
  - intros P. unfold is_word, W in *. assert (l = lo /\ h = hi) as [-> ->] by lia. unfold wsub. rewrite !Z.sub_diag. reflexivity.
Qed.
(** mul_test.cpp:7-10 *)
Example C101_mul_case : mul_test mul_ 12473026286576736102 4953360856192166699 9994061768550322210 3349284834185960393 = (0, 0).
Proof. vm_compute. reflexivity. Qed.

Lemma collect L (f : Z -> Z) body : 0 <= L -> (forall i out, 0 <= i < L -> body i out = Ok (out ++ [f i])) -> for_ 0 L body [] = Ok (tab L f).
Proof.
  intros HL H. apply (for_closed _ (fun i => tab i f)); auto. intros i Hi. rewrite H by auto. apply f_equal. unfold tab.
  replace (Z.to_nat (i + 1)) with (Z.to_nat i + 1)%nat by lia. rewrite seq_app, map_app. cbn. rewrite Z2Nat.id by lia. reflexivity.
Qed.
Lemma differences_tab L n m f g : 0 <= L -> L <= n -> L <= m -> differences L (wtab n f) (wtab m g) = Ok (tab L (fun i => wsub (f i) (g i))).
Proof. intros. unfold differences. apply collect; auto. intros i out Hi. rewrite !rd_wtab by lia. reflexivity. Qed.
Lemma tab_zero L f : (forall i, 0 <= i < L -> f i = 0) -> tab L f = repeat 0 (Z.to_nat L).
Proof.
  intros H. rewrite repeat_tab. apply tab_ext. exact H.
Qed.

(** crt_test prints zeros whenever a is less than half the product of the primes and a_rns holds its remainders *)
Theorem C101_crt_test : forall qs w a v a_rns, crt_moduli qs -> 2 <= w < 2 ^ 20 -> stores (64 * w) a v -> 2 * v < 2 ^ (64 * w) -> 2 * v < product qs ->
  length a_rns = length qs -> (forall i, 0 <= i < Z.of_nat (length qs) -> coef a_rns i = v mod coef qs i) ->
  crt_test (Z.of_nat (length qs)) w (map Some qs) a (map Some a_rns) = Ok (repeat 0 (length qs), repeat 0 (Z.to_nat w)).
Proof.
  intros qs w a v a_rns Hqs Hw Ha Hv Hp Hl Hr. destruct (crt_new_list qs Hqs) as (M & E & HT). set (L := Z.of_nat (length qs)) in *.
  pose proof (crt_moduli_ok qs Hqs) as HM. fold L in HM. unfold crt_test. cbv zeta. rewrite E. cbn [bind].
  apply stores_raw in Ha; [|lia]. destruct Ha as [Ea Hv0].
  assert (HQ : 1 <= 64 * w) by lia. pose proof (pow2_half (64 * w) HQ) as Hh. pose proof (pow2_pos (64 * w) ltac:(lia)) as Hp2.
  assert (El : len (64 * w) = w) by (unfold len; rewrite Z.quot_div_nonneg by lia; symmetry; apply (Z.div_unique _ 64 _ 63); lia).
  assert (Er : a = rep (64 * w) v) by (unfold rep; rewrite Z.mod_small by lia; exact Ea).
  assert (Ecp : for_ 0 w (fun i a0 => x <- rd a i ;; wr a0 i x) (zq_new (64 * w)) = Ok a).
  { rewrite <- El at 1. pose proof (zq_copy_raw (64 * w) (zq_new (64 * w)) v HQ (zq_new_length _)) as C. unfold zq_copy in C. rewrite <- Ea in C. exact C. }
  rewrite Ecp. cbn [bind]. rewrite Er at 1.
  rewrite (crt_icrt_ok L (coef qs)) by (auto; try lia; try apply HT; apply repeat_length). cbn [bind].
  assert (EL : length qs = Z.to_nat L) by (unfold L; lia).
  rewrite (words_tab a_rns L) by lia. rewrite differences_tab by lia. cbn [bind].
  rewrite <- (words_tab a_rns L) by lia.
  assert (Hq : forall i, 0 <= i < L -> 1 < coef qs i < W). { intros i Hi. pose proof (mod_pos L (coef qs) HM i Hi). lia. }
  destruct (C25_crt qs Hqs) as (M' & E' & HC). fold L in E', HC. rewrite E in E'. injection E' as <-.
  destruct (HC (64 * w) a_rns (zq_new (64 * w))) as [_ HC2]; [lia| |auto| |].
  { unfold object. rewrite zq_new_length, El. rewrite Z2Nat.id by lia. apply (Z.div_unique _ 64 _ 63); lia. }
  { apply Forall_forall. intros x Hx. destruct (In_nth _ _ 0 Hx) as (k & Hk & <-). specialize (Hr (Z.of_nat k) ltac:(unfold L; lia)). unfold coef in Hr. rewrite Nat2Z.id in Hr. rewrite Hr.
    specialize (Hq (Z.of_nat k) ltac:(unfold L; lia)). unfold coef in Hq. rewrite Nat2Z.id in Hq. unfold is_word. pose proof (Z.mod_pos_bound v (nth k qs 0)). lia. }
  destruct (HC2 v ltac:(lia)) as (A & EA & HA).
  { intros i Hi. rewrite Hr by auto. specialize (Hq i Hi). rewrite Zminus_mod, Z.mod_mod, <- Zminus_mod, Z.sub_diag by lia. apply Z.mod_0_l. lia. }
  rewrite EA. cbn [bind]. apply holds_rep in HA; [|lia]. subst A. rewrite Er. unfold rep, raw. rewrite El, differences_tab by lia. cbn [bind].
  apply f_equal. apply f_equal2.
  - rewrite EL. apply tab_zero. intros i Hi. rewrite Hr by auto. specialize (Hq i Hi). unfold icrt_word. rewrite cent_small by lia. rewrite El.
    destruct (Z.ltb_spec v 0); [lia|]. destruct (Z.eqb_spec w 1); [lia|]. unfold wsub. rewrite Z.sub_diag. reflexivity.
  - apply tab_zero. intros i Hi. unfold wsub. rewrite Z.sub_diag. reflexivity.
Qed.

(** ntt_test prints 0, 1, 2, ... *)
Theorem C101_ntt_test : forall k q, 1 <= k <= 29 -> good_modulus k q -> ntt_test (2 ^ k) q = Ok (firstn (Z.to_nat (Z.min (2 ^ k) 10)) [0; 1; 2; 3; 4; 5; 6; 7; 8; 9]).
Proof.
  intros k q Hk Hq. destruct (C22_intt_inverts k q Hk Hq) as (T & ET & H). unfold ntt_test. rewrite ET. cbn [bind].
  pose proof (pow2_pos k ltac:(lia)) as Pk. assert (Hb : 2 ^ k <= 2 ^ 29) by (apply Z.pow_le_mono_r; lia).
  assert (Hqk : 2 ^ k < q). { destruct Hq as (Hpr & _ & Hm). pose proof (prime_ge_2 q Hpr). pose proof (pow2_pos (k + 1) ltac:(lia)). destruct (Z.lt_ge_cases q (2 ^ (k + 1))) as [C|C].
    - rewrite Z.mod_small in Hm by lia. lia.
    - rewrite Z.pow_add_r in C by lia. lia. }
  assert (Ef : for_ 0 (2 ^ k) (fun i a => wr a i i) (fresh (2 ^ k)) = Ok (map Some (tab (2 ^ k) (fun i => i)))).
  { rewrite <- wtab_words. apply (for_closed _ (fun i => tab (2 ^ k) (fun j => if j <? i then Some j else None))); [lia| | |].
    - rewrite fresh_tab. apply tab_ext. intros j Hj. destruct (Z.ltb_spec j 0); [lia|reflexivity].
    - unfold wtab. apply tab_ext. intros i Hi. destruct (Z.ltb_spec i (2 ^ k)); [reflexivity|lia].
    - intros i Hi. rewrite wr_tab by auto. apply f_equal. apply tab_ext. intros j Hj. destruct (Z.eqb_spec j i), (Z.ltb_spec j i), (Z.ltb_spec j (i + 1)); subst; try lia; reflexivity. }
  rewrite Ef. cbn [bind]. destruct (H (tab (2 ^ k) (fun i => i))) as [(b & E1 & E2) _].
  { apply tab_length. }
  { apply Forall_forall. intros x Hx. unfold tab in Hx. apply in_map_iff in Hx. destruct Hx as (j & <- & Hj). apply in_seq in Hj. unfold is_word, W. lia. }
  rewrite E1. cbn [bind]. rewrite E2. cbn [bind].
  assert (Em : map (fun x => Some (x mod q)) (tab (2 ^ k) (fun i => i)) = wtab (2 ^ k) (fun i => i)).
  { unfold wtab, tab. rewrite map_map. apply map_ext_in. intros j Hj. apply in_seq in Hj. rewrite Z.mod_small by lia. reflexivity. }
  rewrite Em. unfold printed. rewrite (collect _ (fun i => i)); [|lia|intros i out Hi; rewrite rd_wtab by lia; reflexivity]. apply f_equal.
  unfold tab. set (m := Z.to_nat (Z.min (2 ^ k) 10)). assert (Hm : (m <= 10)%nat) by lia. clearbody m. do 11 (destruct m as [|m]; [reflexivity|]). lia.
Qed.

(** The primes of crt_test.cpp:8-9 and of ntt_test.cpp:7 *)
Definition test_certs : list cert :=
  [(1152921504606847009, 7, [(2, 5); (11, 2); (683, 1); (2971, 1)]);
   (6350483, 2, [(10837, 1)]);
   (12700967, 2, [(6350483, 1)]);
   (2159164391, 2, [(12700967, 1)]);
   (6334733541795863, 2, [(2159164391, 1)]);
   (1152921504606847067, 2, [(6334733541795863, 1)]);
   (196075085817491, 2, [(11, 2); (277, 1); (1811, 1)]);
   (1152921504606847081, 2, [(196075085817491, 1)]);
   (9991665401, 17, [(2, 3); (5, 2); (1223, 1)]);
   (1152921504606847123, 2, [(9991665401, 1)]);
   (68297419829, 2, [(2, 2); (11, 1); (17, 2); (23, 1)]);
   (1152921504606847127, 2, [(68297419829, 1)]);
   (4923563, 2, [(7, 1); (29, 1); (67, 1)]);
   (590827561, 2, [(4923563, 1)]);
   (9453240977, 2, [(590827561, 1)]);
   (1152921504606877697, 2, [(9453240977, 1)])].
Lemma test_certs_prime p : In p (map (fun c => fst (fst c)) test_certs) -> prime p.
Proof.
  assert (H : check_certs [] test_certs = true) by (vm_compute; reflexivity). apply (check_certs_ok _ [] (Forall_nil _)) in H. rewrite Forall_forall in H.
  intros Hp. apply in_map_iff in Hp. destruct Hp as (c & <- & Hc). apply H. exact Hc.
Qed.
(** crt_test.cpp:8-28 *)
Definition test_primes : list Z := [1152921504606847009; 1152921504606847067; 1152921504606847081; 1152921504606847123; 1152921504606847127].
Definition test_data : list Z := [2496847982066394524; 6179808641469508490; 4613858499374131512; 14039320798214412288; 0].
Definition test_rns : list Z := [171973778066475490; 441363031084368163; 885382643671141350; 1019151257649711462; 1052569354770772635].
(** The two closed programs *)
Theorem C101_programs : crt_test 5 5 (map Some test_primes) (map Some test_data) (map Some test_rns) = Ok ([0; 0; 0; 0; 0], [0; 0; 0; 0; 0]) /\
  ntt_test 1024 1152921504606877697 = Ok [0; 1; 2; 3; 4; 5; 6; 7; 8; 9].
Proof.
  split.
  - apply (C101_crt_test test_primes 5 (map Some test_data) (2496847982066394524 + 2 ^ 64 * (6179808641469508490 + 2 ^ 64 * (4613858499374131512 + 2 ^ 64 * 14039320798214412288))) test_rns).
    + split; [|split; [|split]].
      * repeat (constructor; [apply test_certs_prime; cbn; tauto|]). constructor.
      * repeat (constructor; [reflexivity|]). constructor.
      * repeat (constructor; [cbn; lia|]). constructor.
      * reflexivity.
    + lia.
    + split; vm_compute; reflexivity.
    + vm_compute. reflexivity.
    + vm_compute. reflexivity.
    + reflexivity.
    + intros i Hi. change (Z.of_nat (length test_primes)) with 5 in Hi. assert (i = 0 \/ i = 1 \/ i = 2 \/ i = 3 \/ i = 4) as [->|[->|[->|[->| ->]]]] by lia; vm_compute; reflexivity.
  - apply (C101_ntt_test 10); [lia|]. split; [apply test_certs_prime; cbn; tauto|]. split; [vm_compute; discriminate|vm_compute; reflexivity].
Qed.
