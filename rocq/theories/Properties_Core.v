(** Properties of the scheme: C34-C39 and C43. *)
From Coq Require Import ZArith List Bool Lia Setoid Morphisms.
From Verif Require Import Base BaseFacts ZQ ZQFacts ZQFacts2 SpecZQ SpecZQFacts Util RQ Conv Sums SpecPoly SpecScheme NTTFacts
  CRTFacts RQFacts SpecPolyFacts PolyRing PolyCong ConvFacts Core CoreFacts Rot Noise KeygenFacts Properties_NTT Properties_Conv.
Import ListNotations.
Open Scope Z_scope.

(** ** C34: key generation *)

(** Whenever keygen returns, the key is ternary with exactly h nonzero coefficients; it never reads or writes
    outside its arrays. *)
Theorem C34_keygen : forall fuel N rnd RM h D pos, 1 <= N -> 0 <= h -> rand_stream RM rnd -> length D = Z.to_nat N ->
  keygen fuel N rnd h D pos = Diverge \/
  exists s pos', keygen fuel N rnd h D pos = Ok (map Some s, pos') /\ ternary N s /\
    count N (fun k => negb (coef s k =? 0)) = h.
Proof.
  intros fuel N rnd RM h D pos HN Hh Hr HD. assert (Hr' : forall k, 0 <= rnd k) by (intros; apply Hr).
  rewrite keygen_eq by (auto; lia).
  destruct (kg_loop_safe N rnd HN Hr' fuel h Hh _ (kg_init N pos)) as [E|((s & p) & E & f & Es & Ht & Hn)]; [left; auto|].
  cbn [fst] in Es. subst s. right. exists (tab N f), p. rewrite E, wtab_words. split; auto. split.
  - split; [apply tab_length|]. unfold tab. apply Forall_forall. intros x Hx. apply in_map_iff in Hx. destruct Hx as (k & <- & Hk).
    apply in_seq in Hk. apply Ht. lia.
  - rewrite <- Hn. unfold count, norm1. apply zsum_ext. intros i Hi. rewrite coef_tab by auto.
    destruct (Ht i Hi) as [->|[->| ->]]; reflexivity.
Qed.
(** For h > N keygen never returns. *)
Theorem C34_keygen_never : forall fuel N rnd RM h D pos, 1 <= N -> N < h -> rand_stream RM rnd -> length D = Z.to_nat N ->
  keygen fuel N rnd h D pos = Diverge.
Proof.
  intros fuel N rnd RM h D pos HN Hh Hr HD. assert (Hr' : forall k, 0 <= rnd k) by (intros; apply Hr).
  rewrite keygen_eq by (auto; lia).
  destruct (kg_loop_safe N rnd HN Hr' fuel h ltac:(lia) _ (kg_init N pos)) as [E|((s & p) & E & f & Es & Ht & Hn)]; auto.
  pose proof (norm1_tern N HN f Ht). lia.
Qed.
(** For h <= N it returns when every residue modulo N keeps coming up in the results of rand(). *)
Theorem C34_keygen_returns : forall N rnd RM h D pos, 1 <= N -> 0 <= h <= N -> rand_stream RM rnd -> length D = Z.to_nat N ->
  (forall j p, 0 <= j < N -> exists k, (p <= k)%nat /\ rnd k mod N = j) ->
  exists F r, forall fuel, (F <= fuel)%nat -> keygen fuel N rnd h D pos = Ok r.
Proof.
  intros N rnd RM h D pos HN Hh Hr HD Hf. assert (Hr' : forall k, 0 <= rnd k) by (intros; apply Hr).
  assert (Hfair : fair N rnd).
  { intros j p Hj. destruct (Hf j p Hj) as (k & Hk & E). exists k. split; auto. rewrite Z.rem_mod_nonneg; auto. lia. }
  destruct (kg_loop_total N rnd HN Hr' h Hfair Hh _ (kg_init N pos)) as (F & st & E & _).
  exists F, st. intros fuel Hfu. rewrite keygen_eq by (auto; lia). auto.
Qed.
Example C34_case : keygen 10 4 (fun k => nth k [6; 3; 2; 6; 1; 5] 0) 2 (repeat None 4) 0 = Ok (map Some [0; -1; -1; 0], 6%nat).
Proof. vm_compute. reflexivity. Qed.
Example C34_case_fair : forall j p, 0 <= j < 4 -> exists k, (p <= k)%nat /\ (Z.of_nat k mod 1024) mod 4 = j.
Proof.
  intros j p Hj. exists (4 * p + Z.to_nat j)%nat. split; [lia|].
  replace (Z.of_nat (4 * p + Z.to_nat j)) with (j + Z.of_nat p * 4) by lia.
  rewrite <- Znumtheory.Zmod_div_mod; try lia; [|exists 256; lia]. rewrite Z_mod_plus_full. apply Z.mod_small. lia.
Qed.

(** ** Encodings *)
Lemma object2_obj LOGQ N ct : 1 <= LOGQ -> 0 <= N -> object2 LOGQ N ct -> objS LOGQ N ct.
Proof. intros HQ HN [H0 H1]. split; apply objectP_obj; auto. Qed.
Lemma decrypts_rep LOGQ N ct s m : 1 <= LOGQ -> 0 <= N -> decrypts LOGQ N ct s m <->
  exists a b, ct = repS LOGQ N a b /\ pcong N (2 ^ LOGQ) (padd a (negconv N s b)) m.
Proof.
  intros HQ HN. pose proof (pow2_pos LOGQ ltac:(lia)). split.
  - intros (a & b & Ha & Hb & Hm). apply holdsP_rep in Ha, Hb; auto. exists a, b. split.
    + destruct ct. cbn [fst snd] in *. subst. reflexivity.
    + apply pcong_mod; auto.
  - intros (a & b & -> & Hm). exists a, b. split; [apply repP_holds; auto|]. split; [apply repP_holds; auto|].
    apply (proj1 (pcong_mod N _ _ _ H) Hm).
Qed.
Lemma ternary_tern N s : ternary N s -> forall i, 0 <= i < N -> tern (coef s i) = coef s i.
Proof.
  intros [Hl Hf] i Hi. rewrite Forall_forall in Hf. destruct (Hf (coef s i)) as [E|[E|E]]; [apply nth_In; lia| | |]; rewrite E; reflexivity.
Qed.
Lemma negconv_tern N s b : ternary N s -> forall i, 0 <= i < N -> negconv N (fun k => tern (coef s k)) b i = negconv N (coef s) b i.
Proof. intros Ht i Hi. unfold negconv. apply zsum_ext. intros k Hk. rewrite (ternary_tern N s Ht k Hk). reflexivity. Qed.

(** ** C35: encryption and decryption *)
Theorem C35_dec : forall LOGQ N ct s m D, 1 <= LOGQ -> 1 <= N -> ternary N s -> objectP LOGQ N D ->
  decrypts LOGQ N ct (coef s) m -> exists pt, dec LOGQ N ct (map Some s) D = Ok pt /\ holdsP LOGQ N pt m.
Proof.
  intros LOGQ N ct s m D HQ HN Hs HD Hd. apply decrypts_rep in Hd; try lia. destruct Hd as (a & b & -> & Hm).
  rewrite (words_tab s N) by apply Hs. rewrite dec_ok by (auto using objectP_obj; try lia; apply objectP_obj; auto; lia).
  eexists. split; [reflexivity|]. apply holdsP_rep; try lia. apply repP_ext. intros i Hi. rewrite negconv_tern by auto.
  apply (proj1 (pcong_mod N (2 ^ LOGQ) _ _ (pow2_pos LOGQ ltac:(lia))) Hm i Hi).
Qed.

Theorem C35_enc_dec : forall LOGQ N RM rnd pt m s ct pos D, 1 <= LOGQ -> 1 <= N -> rand_stream RM rnd -> ternary N s ->
  holdsP LOGQ N pt m -> object2 LOGQ N ct -> objectP LOGQ N D ->
  exists ct' pos' e pt', enc LOGQ N RM rnd pt (map Some s) ct pos = Ok (ct', pos') /\
    (forall i, 0 <= i < N -> Z.abs (e i) <= 8) /\
    dec LOGQ N ct' (map Some s) D = Ok pt' /\ holdsP LOGQ N pt' (fun i => m i + e i) /\
    decrypts LOGQ N ct' (coef s) (fun i => m i + e i).
Proof.
  intros LOGQ N RM rnd pt m s ct pos D HQ HN Hr Hs Hpt Hct HD. apply holdsP_rep in Hpt; try lia. subst pt.
  assert (Hr' : forall k, 0 <= rnd k) by (intros; apply Hr).
  assert (Hd : forall a b e, (forall i, 0 <= i < N -> a i = e i + m i - negconv N (fun k => tern (coef s k)) b i) ->
     decrypts LOGQ N (repS LOGQ N a b) (coef s) (fun i => m i + e i)).
  { intros a b e Ha. apply decrypts_rep; try lia. exists a, b. split; auto. apply pcong_peq. intros i Hi. unfold padd.
    rewrite Ha, negconv_tern by auto. lia. }
  pose proof Hs as [Hl _]. rewrite (words_tab s N) by auto. rewrite enc_ok by (auto using object2_obj; try lia; apply object2_obj; auto; lia).
  set (e := err rnd (at_ pos (5 * (N * len LOGQ)))). set (u := unif LOGQ RM rnd pos).
  pose proof (Hd (fun i => e i + m i - negconv N (fun k => tern (coef s k)) u i) u e (fun _ _ => eq_refl)) as Hdd.
  destruct (C35_dec LOGQ N _ s _ D HQ HN Hs HD Hdd) as (pt' & E & Hp). rewrite <- (words_tab s N) by auto.
  eexists _, _, e, pt'. split; [reflexivity|]. split; [intros; apply err_bound; auto|]. auto.
Qed.

(** The randomness of a fresh ciphertext: its second polynomial consists of successive results of rand_uint64(), the
    error of successive results of rand(). *)
Theorem C35_enc_randomness : forall LOGQ N RM rnd pt m s ct pos, 1 <= LOGQ -> 1 <= N -> rand_stream RM rnd -> ternary N s ->
  holdsP LOGQ N pt m -> object2 LOGQ N ct ->
  let l := (LOGQ + 63) / 64 in
  exists ct', enc LOGQ N RM rnd pt (map Some s) ct pos = Ok (ct', (pos + Z.to_nat (5 * (N * l)) + Z.to_nat (2 * N))%nat) /\
    holdsP LOGQ N (snd ct') (fun i => zsum l (fun j => fst (rand_uint64 RM rnd (pos + Z.to_nat (5 * (i * l + j)))%nat) * 2 ^ (64 * j))) /\
    decrypts LOGQ N ct' (coef s) (fun i =>
      let p := (pos + Z.to_nat (5 * (N * l)) + Z.to_nat (2 * i))%nat in
      m i + (if rnd (p + 1)%nat mod 2 =? 1 then - (rnd p mod 9) else rnd p mod 9)).
Proof.
  intros LOGQ N RM rnd pt m s ct pos HQ HN Hr Hs Hpt Hct l. apply holdsP_rep in Hpt; try lia. subst pt.
  assert (Hr' : forall k, 0 <= rnd k) by (intros; apply Hr). pose proof Hs as [Hl _].
  assert (El : len LOGQ = l) by (unfold l; apply len_div; lia). pose proof (len_bounds LOGQ HQ).
  rewrite (words_tab s N) by auto. rewrite enc_ok by (auto using object2_obj; try lia; apply object2_obj; auto; lia).
  eexists. split; [|split].
  - apply f_equal. apply f_equal2; [reflexivity|]. unfold enc_end, at_. rewrite El. reflexivity.
  - cbn [snd repS]. apply holdsP_rep; try lia. apply repP_ext. intros i Hi. f_equal. unfold unif.
    assert (Ev : forall n f, valf n f = zsum (Z.of_nat n) (fun j => f j * 2 ^ (64 * j))).
    { intros n f. induction n; [reflexivity|]. rewrite valf_S, IHn, Nat2Z.inj_succ. unfold Z.succ. rewrite zsum_S by lia. reflexivity. }
    rewrite Ev, Z2Nat.id, El by lia. apply zsum_ext. intros j Hj. unfold draw, at_. reflexivity.
  - apply decrypts_rep; try lia. eexists _, _. split; [reflexivity|]. apply pcong_peq. intros i Hi. unfold padd.
    rewrite negconv_tern by auto. unfold err, at_. rewrite El. cbv zeta.
    replace (pos + Z.to_nat (5 * (N * l)) + Z.to_nat (2 * i) + 1)%nat with (pos + Z.to_nat (5 * (N * l)) + Z.to_nat (2 * i + 1))%nat by lia.
    rewrite !Z.rem_mod_nonneg by (auto; lia). destruct (_ =? 1); lia.
Qed.

(** Encrypting 5 + 7X modulo X^2+1 and 2^10 under the key -1 + X; the stream is 1,2,3,... *)
Example C35_case : let rnd := fun k => Z.of_nat k + 1 in
  (x <- enc 10 2 32767 rnd [[Some 5]; [Some 7]] (map Some [-1; 1]) (repeat [None] 2, repeat [None] 2) 0 ;;
   dec 10 2 (fst x) (map Some [-1; 1]) (repeat [None] 2)) = Ok [[Some 7]; [Some 11]].
Proof. vm_compute. reflexivity. Qed.
Example C35_case_hyps : ternary 2 [-1; 1] /\ holdsP 10 2 [[Some 5]; [Some 7]] (coef [5; 7]) /\
  object2 10 2 (repeat [None] 2, repeat [None] 2).
Proof.
  split; [split; [reflexivity|]; apply Forall_forall; intros x [<-|[<-|[]]]; lia|]. split.
  - split; [reflexivity|]. intros i A Hi E. assert (Hc : i = 0 \/ i = 1) by lia. destruct Hc as [-> | ->]; injection E as <-; vm_compute; auto.
  - split; (split; [reflexivity|repeat constructor]).
Qed.

(** ** C36: arithmetic on ciphertexts *)
Theorem C36_add : forall LOGQ N ct1 ct2 s m1 m2, 1 <= LOGQ -> 1 <= N ->
  decrypts LOGQ N ct1 s m1 -> decrypts LOGQ N ct2 s m2 ->
  exists ct, sq_add LOGQ N ct1 ct2 = Ok ct /\ decrypts LOGQ N ct s (fun i => m1 i + m2 i).
Proof.
  intros LOGQ N ct1 ct2 s m1 m2 HQ HN H1 H2. apply decrypts_rep in H1, H2; try lia.
  destruct H1 as (a & b & -> & H1), H2 as (c & d & -> & H2). rewrite sq_add_rep by lia. eexists. split; [reflexivity|].
  apply decrypts_rep; try lia. eexists _, _. split; [reflexivity|].
  change (fun i => m1 i + m2 i) with (padd m1 m2). rewrite <- H1, <- H2. apply pcong_peq. intros i Hi. unfold padd.
  rewrite negconv_add_r. lia.
Qed.
Theorem C36_sub : forall LOGQ N ct1 ct2 s m1 m2, 1 <= LOGQ -> 1 <= N ->
  decrypts LOGQ N ct1 s m1 -> decrypts LOGQ N ct2 s m2 ->
  exists ct, sq_sub LOGQ N ct1 ct2 = Ok ct /\ decrypts LOGQ N ct s (fun i => m1 i - m2 i).
Proof.
  intros LOGQ N ct1 ct2 s m1 m2 HQ HN H1 H2. apply decrypts_rep in H1, H2; try lia.
  destruct H1 as (a & b & -> & H1), H2 as (c & d & -> & H2). rewrite sq_sub_rep by lia. eexists. split; [reflexivity|].
  apply decrypts_rep; try lia. eexists _, _. split; [reflexivity|].
  change (fun i => m1 i - m2 i) with (psub m1 m2). rewrite <- H1, <- H2. apply pcong_peq. intros i Hi. unfold padd, psub.
  rewrite negconv_sub_r. lia.
Qed.
Theorem C36_mul_word : forall LOGQ N ct s m w, 1 <= LOGQ -> 1 <= N -> 0 <= w < 2 ^ 64 -> decrypts LOGQ N ct s m ->
  exists ct', sq_mul_word LOGQ N ct w = Ok ct' /\ decrypts LOGQ N ct' s (fun i => m i * w).
Proof.
  intros LOGQ N ct s m w HQ HN Hw H. apply decrypts_rep in H; try lia. destruct H as (a & b & -> & H).
  rewrite sq_mul_word_rep by (auto; lia). eexists. split; [reflexivity|].
  apply decrypts_rep; try lia. eexists _, _. split; [reflexivity|].
  transitivity (pscal w m); [|apply pcong_peq; intros i Hi; unfold pscal; lia].
  rewrite <- H. apply pcong_peq. intros i Hi. unfold padd, pscal.
  rewrite Z.mul_add_distr_l, <- negconv_scal_r. f_equal; [lia|]. unfold negconv. apply zsum_ext. intros k Hk. destruct (_ <=? _); lia.
Qed.
Theorem C36_mul_plain : forall k LOGQ ct s m pt p, 1 <= k <= 17 -> widths LOGQ ->
  decrypts LOGQ (2 ^ k) ct s m -> holdsP LOGQ (2 ^ k) pt p ->
  exists ct', sq_mul LOGQ (2 ^ k) ct pt = Ok ct' /\ decrypts LOGQ (2 ^ k) ct' s (negconv (2 ^ k) m p).
Proof.
  intros k LOGQ ct s m pt p Hk HW H Hp. rewrite <- (Z2Nat.id k) in * by lia. set (L := Z.to_nat k) in *.
  assert (HL : (1 <= L <= 17)%nat) by lia. clearbody L. clear k Hk. assert (HQ : 1 <= LOGQ) by (unfold widths in HW; lia).
  assert (HN : 1 <= 2 ^ Z.of_nat L) by (pose proof (pow2_pos (Z.of_nat L)); lia).
  apply decrypts_rep in H; try lia. destruct H as (a & b & -> & H). apply holdsP_rep in Hp; try lia. subst pt.
  pose proof (sq_mul_rep LOGQ L a b p HW HL) as E. cbv zeta in E. set (N := 2 ^ Z.of_nat L) in *. clearbody N.
  eexists. split; [exact E|]. apply decrypts_rep; try lia. eexists _, _. split; [reflexivity|].
  rewrite <- H. apply pcong_peq. intros i Hi. unfold padd. rewrite negconv_add_l, negconv_assoc by auto. reflexivity.
Qed.
Example C36_case : decrypts 70 (2 ^ 1) (ex_A, ex_B) (coef [0; 1]) (coef [2; 5]) /\ holdsP 70 (2 ^ 1) ex_A (coef [1; 2]).
Proof.
  destruct C27_case_hyps as (HA & HB & _). split; [|exact HA].
  exists (coef [1; 2]), (coef [3; -1]). split; [exact HA|]. split; [exact HB|]. intros i Hi.
  assert (Hc : i = 0 \/ i = 1) by (change (2 ^ 1) with 2 in Hi; lia). destruct Hc as [-> | ->]; reflexivity.
Qed.

(** ** C37: rescaling *)
Theorem C37_RS : forall LOGQfr LOGQto N ct D s m, 1 <= LOGQto <= LOGQfr -> 1 <= N -> object2 LOGQto N D ->
  decrypts LOGQfr N ct s m ->
  let d := LOGQfr - LOGQto in
  exists ct' m' e, RS LOGQfr LOGQto N ct D = Ok ct' /\ decrypts LOGQto N ct' s m' /\
    forall i, 0 <= i < N -> (2 ^ d * m' i) mod 2 ^ LOGQfr = (m i + e i) mod 2 ^ LOGQfr /\
                            Z.abs (e i) <= 2 ^ (d - 1) * (1 + norm1 N s).
Proof.
  intros fr to N ct D s m Hf HN HD H d. apply decrypts_rep in H; try lia. destruct H as (a & b & -> & H).
  rewrite RS_ok by (auto; try lia; apply object2_obj; auto; lia).
  destruct (RS_noise N fr to s a b Hf) as (e & He & E). fold d in He, E.
  eexists _, _, e. split; [reflexivity|]. split.
  { apply decrypts_rep; try lia. eexists _, _. split; [reflexivity|]. apply pcong_refl. }
  intros i Hi. split; auto. unfold padd. rewrite E by auto.
  apply (proj1 (pcong_mod N (2 ^ fr) _ _ (pow2_pos fr ltac:(lia)))) with (i := i) in H; auto. unfold padd in H.
  rewrite Zplus_mod, H, <- Zplus_mod. reflexivity.
Qed.
(** Exact when both moduli agree: the bound is then 2^(-1) = 0. *)
Example C37_case : exists ct', RS 70 66 2 (ex_A, ex_B) (repeat [None; None] 2, repeat [None; None] 2) = Ok ct' /\
  ct' = ([[Some 0; Some 0]; [Some 0; Some 0]], [[Some 0; Some 0]; [Some 0; Some 0]]).
Proof. eexists. split; vm_compute; reflexivity. Qed.

(** ** C38: key switching *)
Definition switching_key (LOGQ N : Z) (swk : list arr * list arr) (s_fr s_to : Z -> Z) : Prop :=
  exists e, (forall i, 0 <= i < N -> Z.abs (e i) <= 8) /\ decrypts (2 * LOGQ) N swk s_to (fun i => 2 ^ LOGQ * s_fr i + e i).

Theorem C38_swkgen : forall LOGQ N RM rnd s_fr s_to D pos, 1 <= LOGQ -> 1 <= N -> rand_stream RM rnd ->
  length s_fr = Z.to_nat N -> Forall (fun x => Z.abs x < 2 ^ 31) s_fr -> ternary N s_to -> object2 (2 * LOGQ) N D ->
  exists swk pos', swkgen LOGQ N RM rnd (map Some s_fr) (map Some s_to) D pos = Ok (swk, pos') /\
    switching_key LOGQ N swk (coef s_fr) (coef s_to).
Proof.
  intros LOGQ N RM rnd s_fr s_to D pos HQ HN Hr Hl Hb Hs HD. assert (Hr' : forall k, 0 <= rnd k) by (intros; apply Hr).
  pose proof Hs as [Hl2 _]. rewrite (words_tab s_fr N), (words_tab s_to N) by auto.
  rewrite swkgen_ok; auto; try lia.
  2: { intros i Hi. rewrite Forall_forall in Hb. apply Hb. apply nth_In. lia. }
  2: { apply object2_obj; auto; lia. }
  eexists _, _. split; [reflexivity|]. exists (err rnd (at_ pos (5 * (N * len (2 * LOGQ))))). split; [intros; apply err_bound; auto|].
  apply decrypts_rep; try lia. eexists _, _. split; [reflexivity|]. apply pcong_peq. intros i Hi. unfold padd.
  rewrite negconv_tern by auto. lia.
Qed.

(** What ks does with any switching key. *)
Theorem C38_ks_key : forall k LOGQ swk ct s_fr s_to m, 1 <= k <= 17 -> 1 <= LOGQ -> widths (2 * LOGQ) ->
  switching_key LOGQ (2 ^ k) swk s_fr s_to -> decrypts LOGQ (2 ^ k) ct s_fr m ->
  exists ct' e, ks LOGQ (2 ^ k) swk ct = Ok ct' /\ decrypts LOGQ (2 ^ k) ct' s_to (fun i => m i + e i) /\
    forall i, 0 <= i < 2 ^ k -> 2 * Z.abs (e i) <= 16 * 2 ^ k + 1 + norm1 (2 ^ k) s_to.
Proof.
  intros k LOGQ swk ct s_fr s_to m Hk HQ HW (e & He & Hw) H. rewrite <- (Z2Nat.id k) in * by lia. set (L := Z.to_nat k) in *.
  assert (HL : (1 <= L <= 17)%nat) by lia. clearbody L. clear k Hk.
  assert (HN : 1 <= 2 ^ Z.of_nat L) by (pose proof (pow2_pos (Z.of_nat L)); lia).
  apply decrypts_rep in H; try lia. destruct H as (c0 & c1 & -> & H).
  apply decrypts_rep in Hw; try lia. destruct Hw as (b & a & -> & Hw).
  pose proof (ks_ok LOGQ L b a c0 c1 HQ HW HL) as E. cbv zeta in E. set (N := 2 ^ Z.of_nat L) in *. clearbody N.
  set (P := 2 ^ LOGQ). assert (HP : 0 < P) by (apply pow2_pos; lia).
  set (d := fun i => c1 i mod P) in *.
  destruct (ks_noise N HN P LOGQ s_fr s_to b a d e 8 P HQ eq_refl ltac:(lia) ltac:(lia) He) as (Er & HE & HC).
  { intros i Hi. unfold d. pose proof (Z.mod_pos_bound (c1 i) P HP). lia. }
  { replace (P * P) with (2 ^ (2 * LOGQ)) by (unfold P; rewrite <- Z.pow_add_r by lia; f_equal; lia).
    rewrite Hw. apply pcong_peq. intros i Hi. unfold padd, pscal. fold P. lia. }
  eexists _, Er. split; [exact E|]. split.
  - apply decrypts_rep; try lia. eexists _, _. split; [reflexivity|]. fold P.
    change (fun i => m i + Er i) with (padd m Er). rewrite <- H.
    set (r := fun x i => rnd_shift (2 * LOGQ) LOGQ (negconv N x d i)) in *.
    change (pcong N P (padd (r b) (negconv N s_to (r a))) (padd (negconv N d s_fr) Er)) in HC.
    transitivity (padd c0 (padd (r b) (negconv N s_to (r a)))).
    { apply pcong_peq. intros i Hi. transitivity (c0 i + r b i + negconv N s_to (r a) i); [reflexivity|unfold padd; lia]. }
    rewrite HC. transitivity (padd (padd c0 (negconv N s_fr d)) Er).
    { apply pcong_peq. intros i Hi. unfold padd. rewrite (negconv_comm N HN d s_fr i Hi). lia. }
    assert (Hd : pcong N P d c1).
    { apply pcong_mod; auto. intros i Hi. unfold d. apply Z.mod_mod. lia. }
    rewrite Hd. apply pcong_refl.
  - intros i Hi. specialize (HE i Hi). nia.
Qed.
(** ks after swkgen, decrypted. *)
Theorem C38_ks : forall k LOGQ RM rnd s_fr s_to D pos ct m, 1 <= k <= 17 -> 1 <= LOGQ -> widths (2 * LOGQ) -> rand_stream RM rnd ->
  length s_fr = Z.to_nat (2 ^ k) -> Forall (fun x => Z.abs x < 2 ^ 31) s_fr -> ternary (2 ^ k) s_to -> object2 (2 * LOGQ) (2 ^ k) D ->
  decrypts LOGQ (2 ^ k) ct (coef s_fr) m ->
  exists swk pos' ct' e, swkgen LOGQ (2 ^ k) RM rnd (map Some s_fr) (map Some s_to) D pos = Ok (swk, pos') /\
    ks LOGQ (2 ^ k) swk ct = Ok ct' /\ decrypts LOGQ (2 ^ k) ct' (coef s_to) (fun i => m i + e i) /\
    forall i, 0 <= i < 2 ^ k -> 2 * Z.abs (e i) <= 16 * 2 ^ k + 1 + norm1 (2 ^ k) (coef s_to).
Proof.
  intros k LOGQ RM rnd s_fr s_to D pos ct m Hk HQ HW Hr Hl Hb Hs HD H.
  assert (HN : 1 <= 2 ^ k) by (pose proof (pow2_pos k); lia).
  destruct (C38_swkgen LOGQ (2 ^ k) RM rnd s_fr s_to D pos HQ HN Hr Hl Hb Hs HD) as (swk & pos' & E1 & Hk1).
  destruct (C38_ks_key k LOGQ swk ct _ _ m Hk HQ HW Hk1 H) as (ct' & e & E2 & H2 & H3).
  exists swk, pos', ct', e. auto.
Qed.
Example C38_case : widths (2 * 1450) /\ ternary 2 [0; 1] /\ Forall (fun x => Z.abs x < 2 ^ 31) [-3; 2].
Proof. split; [unfold widths; lia|]. split; [split; [reflexivity|]|]; apply Forall_forall; intros x [<-|[<-|[]]]; lia. Qed.

(** ** C39: multiplication *)
Theorem C39_Mul_key : forall k LOGQ ct1 ct2 evk D s m1 m2, 1 <= k <= 17 -> widths LOGQ -> widths (2 * LOGQ) ->
  switching_key LOGQ (2 ^ k) evk (negconv (2 ^ k) s s) s ->
  decrypts LOGQ (2 ^ k) ct1 s m1 -> decrypts LOGQ (2 ^ k) ct2 s m2 -> object2 LOGQ (2 ^ k) D ->
  exists ct3 e, Mul LOGQ (2 ^ k) ct1 ct2 evk D = Ok ct3 /\
    decrypts LOGQ (2 ^ k) ct3 s (fun i => negconv (2 ^ k) m1 m2 i + e i) /\
    forall i, 0 <= i < 2 ^ k -> 2 * Z.abs (e i) <= 8 * 2 ^ k + 1 + norm1 (2 ^ k) s.
Proof.
  intros k LOGQ ct1 ct2 evk D s m1 m2 Hk HW HW2 (e & He & Hw) H1 H2 HD. rewrite <- (Z2Nat.id k) in * by lia. set (L := Z.to_nat k) in *.
  assert (HL : (1 <= L <= 17)%nat) by lia. clearbody L. clear k Hk. assert (HQ : 1 <= LOGQ) by (unfold widths in HW; lia).
  assert (HN : 1 <= 2 ^ Z.of_nat L) by (pose proof (pow2_pos (Z.of_nat L)); lia).
  apply decrypts_rep in H1, H2; try lia. destruct H1 as (a & b & -> & H1), H2 as (c & d & -> & H2).
  apply decrypts_rep in Hw; try lia. destruct Hw as (f & g & -> & Hw).
  assert (HD' : objS LOGQ (2 ^ Z.of_nat L) D) by (apply object2_obj; auto; lia).
  pose proof (Mul_ok LOGQ L a b c d f g D HW HW2 HL HD') as E. cbv zeta in E. set (N := 2 ^ Z.of_nat L) in *. clearbody N.
  set (P := 2 ^ LOGQ). assert (HP : 0 < P) by (apply pow2_pos; lia). pose proof (pow2_half LOGQ HQ) as HP2. fold P in HP2.
  set (d2 := fun i => cent LOGQ (negconv N b d i)) in *.
  destruct (ks_noise N HN P LOGQ (negconv N s s) s f g d2 e 8 (2 ^ (LOGQ - 1)) HQ eq_refl ltac:(lia) ltac:(apply Z.pow_nonneg; lia) He) as (Er & HE & HC).
  { intros i Hi. unfold d2. pose proof (cent_bounds LOGQ (negconv N b d i) HQ). lia. }
  { replace (P * P) with (2 ^ (2 * LOGQ)) by (unfold P; rewrite <- Z.pow_add_r by lia; f_equal; lia).
    rewrite Hw. apply pcong_peq. intros i Hi. unfold padd, pscal. fold P. lia. }
  eexists _, Er. split; [exact E|]. split.
  - apply decrypts_rep; try lia. eexists _, _. split; [reflexivity|]. fold P.
    change (fun i => negconv N m1 m2 i + Er i) with (padd (negconv N m1 m2) Er). rewrite <- H1, <- H2.
    set (r := fun x i => rnd_shift (2 * LOGQ) LOGQ (negconv N x d2 i)) in *.
    change (pcong N P (padd (r f) (negconv N s (r g))) (padd (negconv N d2 (negconv N s s)) Er)) in HC.
    transitivity (padd (padd (r f) (negconv N s (r g))) (padd (negconv N a c) (negconv N s (padd (negconv N b c) (negconv N a d))))).
    { apply pcong_peq. intros i Hi. transitivity ((r f i + negconv N a c i) + negconv N s (fun i => r g i + padd (negconv N b c) (negconv N a d) i) i); [reflexivity|].
      rewrite negconv_add_r. unfold padd. lia. }
    rewrite HC.
    assert (Hd : pcong N P d2 (negconv N b d)).
    { apply pcong_mod; auto. intros i Hi. unfold d2. apply cent_congr. auto. }
    rewrite Hd. apply pcong_peq. intros i Hi. unfold padd.
    rewrite !negconv_add_l, !negconv_add_r.
    assert (X1 : negconv N (negconv N b d) (negconv N s s) i = negconv N (negconv N s b) (negconv N s d) i).
    { rewrite (negconv_assoc N HN s b (negconv N s d) i Hi). rewrite (negconv_comm N HN (negconv N b d) (negconv N s s) i Hi).
      rewrite (negconv_assoc N HN s s (negconv N b d) i Hi).
      apply (negconv_peq N HN); auto; [intros j Hj; reflexivity|]. intros j Hj.
      rewrite <- (negconv_assoc N HN s b d j Hj). rewrite <- (negconv_assoc N HN b s d j Hj).
      apply (negconv_peq N HN); auto; [apply negconv_comm; auto|intros q Hq; reflexivity]. }
    assert (X2 : negconv N s (negconv N b c) i = negconv N (negconv N s b) c i) by (symmetry; apply negconv_assoc; auto).
    assert (X3 : negconv N s (negconv N a d) i = negconv N a (negconv N s d) i).
    { rewrite <- (negconv_assoc N HN s a d i Hi), <- (negconv_assoc N HN a s d i Hi).
      apply (negconv_peq N HN); auto; [apply negconv_comm; auto|intros q Hq; reflexivity]. }
    rewrite X1, X2, X3. lia.
  - intros i Hi. specialize (HE i Hi). nia.
Qed.
(** The evaluation key is swkgen(s*s, s), s*s computed by conv on int arrays. *)
Theorem C39_Mul : forall k LOGQ RM rnd s D2 DK pos ct1 ct2 D3 m1 m2, 1 <= k <= 17 -> widths LOGQ -> widths (2 * LOGQ) ->
  rand_stream RM rnd -> ternary (2 ^ k) s -> length D2 = Z.to_nat (2 ^ k) -> object2 (2 * LOGQ) (2 ^ k) DK -> object2 LOGQ (2 ^ k) D3 ->
  decrypts LOGQ (2 ^ k) ct1 (coef s) m1 -> decrypts LOGQ (2 ^ k) ct2 (coef s) m2 ->
  exists s2 evk pos' ct3 e,
    conv_int (2 ^ k) (map Some s) (map Some s) D2 = Ok s2 /\
    swkgen LOGQ (2 ^ k) RM rnd s2 (map Some s) DK pos = Ok (evk, pos') /\
    Mul LOGQ (2 ^ k) ct1 ct2 evk D3 = Ok ct3 /\
    decrypts LOGQ (2 ^ k) ct3 (coef s) (fun i => negconv (2 ^ k) m1 m2 i + e i) /\
    forall i, 0 <= i < 2 ^ k -> 2 * Z.abs (e i) <= 8 * 2 ^ k + 1 + norm1 (2 ^ k) (coef s).
Proof.
  intros k LOGQ RM rnd s D2 DK pos ct1 ct2 D3 m1 m2 Hk HW HW2 Hr Hs HD2 HDK HD3 H1 H2.
  assert (HN : 1 <= 2 ^ k) by (pose proof (pow2_pos k); lia). assert (HQ : 1 <= LOGQ) by (unfold widths in HW; lia).
  assert (HN17 : 2 ^ k <= 2 ^ 17) by (apply Z.pow_le_mono_r; lia).
  pose proof Hs as [Hl Ht].
  assert (Ht1 : Forall (fun x => Z.abs x <= 1) s) by (eapply Forall_impl; [|exact Ht]; cbv beta; intros; lia).
  destruct (C33_conv_int (2 ^ k) s s D2 1 1) as (s2 & E2 & Hl2 & Hc2); auto; try lia.
  assert (Hb2 : Forall (fun x => Z.abs x < 2 ^ 31) s2).
  { apply Forall_forall. intros x Hx. apply In_nth with (d := 0) in Hx. destruct Hx as (n & Hn & <-).
    destruct (Hc2 (Z.of_nat n) ltac:(lia)) as [_ Hb]. unfold coef in Hb. rewrite Nat2Z.id in Hb. lia. }
  destruct (C38_swkgen LOGQ (2 ^ k) RM rnd s2 s DK pos HQ HN Hr Hl2 Hb2 Hs HDK) as (evk & pos' & E3 & e0 & He0 & Hdk).
  assert (Hk2 : switching_key LOGQ (2 ^ k) evk (negconv (2 ^ k) (coef s) (coef s)) (coef s)).
  { exists e0. split; auto. destruct Hdk as (a & b & Ha & Hb & Hab). exists a, b. split; auto. split; auto. intros i Hi.
    rewrite <- (proj1 (Hc2 i Hi)). auto. }
  destruct (C39_Mul_key k LOGQ ct1 ct2 evk D3 (coef s) m1 m2 Hk HW HW2 Hk2 H1 H2 HD3) as (ct3 & e & E4 & Hd & He).
  exists (map Some s2), evk, pos', ct3, e. auto.
Qed.
Example C39_case : widths 1450 /\ widths (2 * 1450) /\ 2 * 1450 <= 3051.
Proof. unfold widths. lia. Qed.

(** ** C43: raising the modulus *)
Theorem C43_mod_raise : forall LOGQfr LOGQto N ct D s m, 1 <= LOGQfr -> 1 <= LOGQto -> 1 <= N -> object2 LOGQto N D ->
  decrypts LOGQfr N ct s m -> (forall i, 0 <= i < N -> signed LOGQfr (m i) (m i)) ->
  exists ct' I, mod_raise LOGQfr LOGQto N ct D = Ok ct' /\
    decrypts LOGQto N ct' s (fun i => m i + 2 ^ LOGQfr * I i) /\
    forall i, 0 <= i < N -> 2 * Z.abs (I i) <= norm1 N s + 2.
Proof.
  intros fr to N ct D s m Hf Ht HN HD H Hm. apply decrypts_rep in H; try lia. destruct H as (a & b & -> & H).
  unfold mod_raise. rewrite sq_resize_rep by (auto; try lia; apply object2_obj; auto; lia).
  set (a' := fun i => cent fr (a i)). set (b' := fun i => cent fr (b i)).
  pose proof (pow2_pos fr ltac:(lia)) as Hp. pose proof (pow2_half fr Hf) as Hh.
  assert (Hc : pcong N (2 ^ fr) (padd a' (negconv N s b')) m).
  { rewrite <- H. assert (Ha : pcong N (2 ^ fr) a' a) by (apply pcong_mod; auto; intros; apply cent_congr; auto).
    assert (Hb : pcong N (2 ^ fr) b' b) by (apply pcong_mod; auto; intros; apply cent_congr; auto).
    rewrite Ha, Hb. apply pcong_refl. }
  exists (repS to N a' b'), (fun i => (padd a' (negconv N s b') i - m i) / 2 ^ fr). split; [reflexivity|].
  assert (HI : forall i, 0 <= i < N -> 2 ^ fr * ((padd a' (negconv N s b') i - m i) / 2 ^ fr) = padd a' (negconv N s b') i - m i).
  { intros i Hi. destruct (Hc i Hi) as [z Hz]. rewrite Hz, Z.div_mul by lia. lia. }
  split.
  - apply decrypts_rep; try lia. exists a', b'. split; auto. apply pcong_peq. intros i Hi. rewrite HI by auto. lia.
  - intros i Hi. specialize (HI i Hi). set (I := (padd a' (negconv N s b') i - m i) / 2 ^ fr) in *.
    assert (B0 : Z.abs (a' i) <= 2 ^ (fr - 1)) by (unfold a'; pose proof (cent_bounds fr (a i) Hf); lia).
    assert (B1 : Z.abs (negconv N s b' i) <= norm1 N s * 2 ^ (fr - 1)).
    { apply negconv_bound1; auto; [apply Z.pow_nonneg; lia|]. intros k Hk. unfold b'. pose proof (cent_bounds fr (b k) Hf). lia. }
    destruct (Hm i Hi) as [Bm _]. unfold padd in HI.
    assert (HB : 2 ^ fr * Z.abs I <= 2 ^ (fr - 1) * (norm1 N s + 2)).
    { replace (2 ^ fr * Z.abs I) with (Z.abs (2 ^ fr * I)) by (rewrite Z.abs_mul; lia). rewrite HI. lia. }
    pose proof (pow2_pos (fr - 1) ltac:(lia)). nia.
Qed.
Example C43_case : signed 60 (-5) (-5) /\ mod_raise 10 70 2 ([[Some 1023]; [Some 2]], [[Some 3]; [Some 512]]) (repeat [None; None] 2, repeat [None; None] 2) =
  Ok ([[Some (2 ^ 64 - 1); Some 63]; [Some 2; Some 0]], [[Some 3; Some 0]; [Some (2 ^ 64 - 512); Some 63]]).
Proof. split; [|vm_compute; reflexivity]. split; [lia|]. exists 0. lia. Qed.

Print Assumptions C34_keygen.
Print Assumptions C34_keygen_never.
Print Assumptions C34_keygen_returns.
Print Assumptions C35_enc_dec.
Print Assumptions C35_enc_randomness.
Print Assumptions C36_add.
Print Assumptions C36_sub.
Print Assumptions C36_mul_word.
Print Assumptions C36_mul_plain.
Print Assumptions C37_RS.
Print Assumptions C38_swkgen.
Print Assumptions C38_ks.
Print Assumptions C39_Mul.
Print Assumptions C43_mod_raise.
