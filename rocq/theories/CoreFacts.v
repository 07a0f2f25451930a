(** The scheme operations in terms of the integers they compute. *)
From Coq Require Import ZArith List Bool Lia.
From Verif Require Import Base BaseFacts ZQ ZQFacts ZQFacts2 ModFacts Util RQ CRTFacts Conv Sums SpecPoly NTTFacts RQFacts ConvFacts Core.
Import ListNotations.
Open Scope Z_scope.

Ltac cmp3 k i := destruct (Z.eqb_spec k i), (Z.ltb_spec k i), (Z.ltb_spec k (i + 1)); try lia; subst; reflexivity.

(** ** Pairs of polynomials *)
Definition repS (LOGQ N : Z) (a b : Z -> Z) : sq := (repP LOGQ N a, repP LOGQ N b).
Definition objS (LOGQ N : Z) (D : sq) : Prop := objP LOGQ N (fst D) /\ objP LOGQ N (snd D).

Lemma objS_rep LOGQ N a b : objS LOGQ N (repS LOGQ N a b).
Proof. split; apply objP_rep. Qed.
Lemma objS_new LOGQ N : objS LOGQ N (sq_new LOGQ N).
Proof. split; apply objP_new. Qed.

Section SQ.
  Variables (LOGQ N : Z).
  Hypothesis HQ : 1 <= LOGQ.
  Hypothesis HN : 0 <= N.
  Lemma sq_copy_rep D a b : objS LOGQ N D -> sq_copy LOGQ N D (repS LOGQ N a b) = Ok (repS LOGQ N a b).
  Proof. intros [H0 H1]. unfold sq_copy, repS. cbn [fst snd]. rewrite !rq_copy_rep by auto. reflexivity. Qed.
  Lemma sq_setzero_ok D : objS LOGQ N D -> sq_setzero LOGQ N D = Ok (repS LOGQ N (fun _ => 0) (fun _ => 0)).
  Proof. intros [H0 H1]. unfold sq_setzero. rewrite !rq_setzero_ok by auto. reflexivity. Qed.
  Lemma sq_add_rep a b a' b' : sq_add LOGQ N (repS LOGQ N a b) (repS LOGQ N a' b') =
    Ok (repS LOGQ N (fun i => a i + a' i) (fun i => b i + b' i)).
  Proof. unfold sq_add, repS. cbn [fst snd]. rewrite !rq_add_rep by auto. reflexivity. Qed.
  Lemma sq_sub_rep a b a' b' : sq_sub LOGQ N (repS LOGQ N a b) (repS LOGQ N a' b') =
    Ok (repS LOGQ N (fun i => a i - a' i) (fun i => b i - b' i)).
  Proof. unfold sq_sub, repS. cbn [fst snd]. rewrite !rq_sub_rep by auto. reflexivity. Qed.
  Lemma sq_mul_word_rep a b w : is_word w -> sq_mul_word LOGQ N (repS LOGQ N a b) w =
    Ok (repS LOGQ N (fun i => a i * w) (fun i => b i * w)).
  Proof. intros Hw. unfold sq_mul_word, repS. cbn [fst snd]. rewrite !rq_mul_word_rep by auto. reflexivity. Qed.
  Lemma sq_resize_rep to D a b : 1 <= to -> objS to N D -> sq_resize LOGQ to N (repS LOGQ N a b) D =
    Ok (repS to N (fun i => cent LOGQ (a i)) (fun i => cent LOGQ (b i))).
  Proof. intros Ht [H0 H1]. unfold sq_resize, repS. cbn [fst snd]. rewrite !rq_resize_rep by auto. reflexivity. Qed.
End SQ.
Lemma sq_mul_rep LOGQ (Ln : nat) a b c : conv_width LOGQ -> (1 <= Ln <= 17)%nat ->
  let N := 2 ^ Z.of_nat Ln in
  sq_mul LOGQ N (repS LOGQ N a b) (repP LOGQ N c) = Ok (repS LOGQ N (negconv N a c) (negconv N b c)).
Proof.
  intros HW HL N. assert (HQ : 1 <= LOGQ) by (unfold conv_width in HW; lia). assert (HN : 0 <= N) by (apply Z.pow_nonneg; lia).
  assert (EC : forall x y D, objP LOGQ N D -> conv_poly LOGQ N (repP LOGQ N x) (repP LOGQ N y) D = Ok (repP LOGQ N (negconv N x y)))
    by (intros; apply conv_poly_ok; auto).
  clearbody N. unfold sq_mul, repS. cbn [fst snd]. rewrite rq_copy_rep by (auto using objP_new). cbn [bind].
  rewrite EC by apply objP_rep. cbn [bind].
  rewrite rq_copy_rep by (auto using objP_rep). cbn [bind].
  rewrite EC by apply objP_rep. reflexivity.
Qed.

(** ** Randomness *)
Definition draw (RM : Z) (rnd : nat -> Z) (p : nat) : Z := fst (rand_uint64 RM rnd p).
Lemma draw_word RM rnd p : is_word (draw RM rnd p).
Proof. unfold draw, rand_uint64. cbn [fst fold_left]. apply wrap_word. Qed.
Lemma rand_uint64_draw RM rnd p : rand_uint64 RM rnd p = (draw RM rnd p, (p + 5)%nat).
Proof. unfold draw, rand_uint64. cbn [fst]. reflexivity. Qed.
Global Opaque rand_uint64.

Definition at_ (pos : nat) (k : Z) : nat := (pos + Z.to_nat k)%nat.

(** Coefficient [i] of the uniform polynomial, as words. *)
Definition unif (LOGQ RM : Z) (rnd : nat -> Z) (pos : nat) (i : Z) : Z :=
  valf (Z.to_nat (len LOGQ)) (fun j => draw RM rnd (at_ pos (5 * (i * len LOGQ + j)))).
(** Coefficient [i] of the error polynomial. *)
Definition err (rnd : nat -> Z) (pos : nat) (i : Z) : Z :=
  let r := Z.rem (rnd (at_ pos (2 * i))) 9 in
  if Z.rem (rnd (at_ pos (2 * i + 1))) 2 =? 1 then - r else r.

Lemma enc_uniform_ok LOGQ N RM rnd D pos : 1 <= LOGQ -> 0 <= N -> objP LOGQ N D ->
  enc_uniform LOGQ N RM rnd D pos = Ok (repP LOGQ N (unif LOGQ RM rnd pos), at_ pos (5 * (N * len LOGQ))).
Proof.
  intros HQ HN (d & -> & Hd). pose proof (len_bounds LOGQ HQ) as Hl. unfold enc_uniform.
  rewrite (for_closed _ (fun i => (tab N (fun k => if k <? i then rep LOGQ (unif LOGQ RM rnd pos k) else d k), at_ pos (5 * (i * len LOGQ)))) _ _ _
    (repP LOGQ N (unif LOGQ RM rnd pos), at_ pos (5 * (N * len LOGQ)))); auto.
  - apply f_equal2; [|unfold at_; lia]. apply tab_ext. intros k Hk. zc; auto.
  - apply f_equal2; [|reflexivity]. apply tab_ext. intros k Hk. zc; auto.
  - intros i Hi. rewrite lget_tab by auto. cbn [bind]. destruct (Z.ltb_spec i i); [lia|].
    destruct (arr_tab None (d i) (len LOGQ) (Hd i Hi)) as [x ->].
    rewrite (for_closed _ (fun j => (tab (len LOGQ) (fun k => if k <? j then Some (draw RM rnd (at_ pos (5 * (i * len LOGQ + k)))) else x k),
        at_ pos (5 * (i * len LOGQ + j)))) _ _ _
      (raw (len LOGQ) (unif LOGQ RM rnd pos i), at_ pos (5 * ((i + 1) * len LOGQ)))).
    + cbn [bind]. rewrite remove_clutter_ok by auto. cbn [bind]. rewrite lset_tab by auto. cbn [bind].
      apply f_equal. apply f_equal2; [|reflexivity]. apply tab_ext. intros k Hk. cmp3 k i.
    + lia.
    + apply f_equal2; [|f_equal; lia]. apply tab_ext. intros k Hk. zc; auto.
    + apply f_equal2; [|f_equal; lia]. unfold unif. rewrite <- wtab_raw by (intros; apply draw_word). apply tab_ext. intros k Hk. zc; auto.
    + intros j Hj. rewrite rand_uint64_draw. rewrite wr_tab by auto. cbn [bind]. apply f_equal.
      apply f_equal2; [|unfold at_; nia]. apply tab_ext. intros k Hk. cmp3 k j.
Qed.

Lemma err_bound rnd pos i : (forall k, 0 <= rnd k) -> Z.abs (err rnd pos i) <= 8.
Proof.
  intros H. unfold err. pose proof (Z.rem_bound_pos (rnd (at_ pos (2 * i))) 9 (H _) ltac:(lia)). destruct (_ =? _); lia.
Qed.

Definition err_words (LOGQ : Z) (rnd : nat -> Z) (pos : nat) (i : Z) : Z :=
  let r := Z.rem (rnd (at_ pos (2 * i))) 9 in
  if Z.rem (rnd (at_ pos (2 * i + 1))) 2 =? 1 then (- r) mod 2 ^ LOGQ else r.

Lemma raw_low n x : 1 <= n -> is_word x -> wtab n (fun j => if j =? 0 then x else dg 0 j) = raw n x.
Proof.
  intros Hn Hx. apply wtab_ext. intros j Hj. unfold is_word in Hx. destruct (Z.eqb_spec j 0) as [->|Hne].
  - rewrite dg_0, Z.mod_small; auto.
  - unfold dg. rewrite Z.div_0_l by (pose proof (Wp_pos j ltac:(lia)); lia).
    rewrite (Z.div_small x). reflexivity. split; [lia|]. assert (Wp 1 <= Wp j) by (unfold Wp; apply Z.pow_le_mono_r; lia). rewrite Wp_1 in *. lia.
Qed.

Lemma enc_error_ok LOGQ N rnd pos : 1 <= LOGQ -> 0 <= N -> (forall k, 0 <= rnd k) ->
  enc_error LOGQ N rnd pos = Ok (tab N (fun i => raw (len LOGQ) (err_words LOGQ rnd pos i)), at_ pos (2 * N)).
Proof.
  intros HQ HN Hr. pose proof (len_bounds LOGQ HQ) as Hl. unfold enc_error.
  rewrite (for_closed _ (fun i => (tab N (fun k => if k <? i then raw (len LOGQ) (err_words LOGQ rnd pos k) else zq_new LOGQ), at_ pos (2 * i))) _ _ _
    (tab N (fun i => raw (len LOGQ) (err_words LOGQ rnd pos i)), at_ pos (2 * N))); auto.
  - apply f_equal2; [|unfold at_; lia]. unfold rq_new. rewrite repeat_tab. apply tab_ext. intros k Hk. zc; auto.
  - apply f_equal2; [|reflexivity]. apply tab_ext. intros k Hk. zc; auto.
  - intros i Hi. rewrite lget_tab by auto. cbn [bind]. destruct (Z.ltb_spec i i); [lia|].
    rewrite zq_setzero_ok by (auto using zq_new_length). cbn [bind]. unfold raw at 1. rewrite wr_wtab by lia. cbn [bind].
    pose proof (Z.rem_bound_pos (rnd (at_ pos (2 * i))) 9 (Hr _) ltac:(lia)) as Hb.
    rewrite raw_low by (unfold is_word, W; lia).
    replace (S (at_ pos (2 * i))) with (at_ pos (2 * i + 1)) by (unfold at_; lia).
    match goal with |- bind ?e _ = _ => assert (E : e = Ok (raw (len LOGQ) (err_words LOGQ rnd pos i))) end.
    { unfold err_words. cbv zeta. destruct (Z.rem _ 2 =? 1); [|reflexivity]. rewrite zq_negate_raw by auto. reflexivity. }
    rewrite E. cbn [bind]. rewrite lset_tab by auto. cbn [bind]. apply f_equal. apply f_equal2.
    + apply tab_ext. intros k Hk. cmp3 k i.
    + unfold at_. lia.
Qed.

(** ** Encryption and decryption *)
Definition enc_end (LOGQ N : Z) (pos : nat) : nat := at_ (at_ pos (5 * (N * len LOGQ))) (2 * N).

Lemma enc_ok LOGQ N RM rnd m s ct pos : 1 <= LOGQ -> 0 <= N -> (forall k, 0 <= rnd k) -> objS LOGQ N ct ->
  let u := unif LOGQ RM rnd pos in
  let e := err rnd (at_ pos (5 * (N * len LOGQ))) in
  enc LOGQ N RM rnd (repP LOGQ N m) (wtab N s) ct pos =
  Ok (repS LOGQ N (fun i => e i + m i - negconv N (fun k => tern (s k)) u i) u, enc_end LOGQ N pos).
Proof.
  intros HQ HN Hr [H0 H1] u e. unfold enc. rewrite enc_uniform_ok by auto. cbn [bind].
  rewrite enc_error_ok by auto. cbn [bind].
  assert (Ea : forall ew, (forall i, 0 <= i < N -> ew i mod 2 ^ LOGQ = e i mod 2 ^ LOGQ) ->
     rq_add LOGQ N (tab N (fun i => raw (len LOGQ) (ew i))) (repP LOGQ N m) = Ok (repP LOGQ N (fun i => e i + m i))).
  { intros ew Hew. unfold rq_add. apply (pupd_loop N _ (fun i d => zq_add LOGQ d (rep LOGQ (m i)))); auto.
    - intros i D Hi. unfold repP. rewrite lget_tab by auto. reflexivity.
    - intros i Hi. unfold rep at 1. rewrite zq_add_raw by auto. f_equal. apply rep_congr.
      pose proof (pow2_pos LOGQ ltac:(lia)). rewrite Z.add_mod_idemp_r by lia.
      rewrite Z.add_mod by lia. rewrite Hew by auto. rewrite <- Z.add_mod by lia. reflexivity. }
  rewrite (Ea (err_words LOGQ rnd (at_ pos (5 * (N * len LOGQ))))).
  2: { intros i Hi. unfold e, err, err_words. cbv zeta. destruct (_ =? 1); auto. apply Z.mod_mod. pose proof (pow2_pos LOGQ); lia. }
  cbn [bind]. rewrite rq_copy_rep by auto. cbn [bind].
  rewrite conv_s_ok by (auto using objP_rep). cbn [bind]. rewrite rq_sub_rep by auto. reflexivity.
Qed.

Lemma dec_ok LOGQ N a b s D : 1 <= LOGQ -> 0 <= N -> objP LOGQ N D ->
  dec LOGQ N (repS LOGQ N a b) (wtab N s) D = Ok (repP LOGQ N (fun i => a i + negconv N (fun k => tern (s k)) b i)).
Proof.
  intros HQ HN HD. unfold dec, repS. cbn [fst snd]. rewrite conv_s_ok by auto. cbn [bind]. rewrite rq_add_rep by auto.
  f_equal. apply repP_ext. intros. f_equal. lia.
Qed.

(** ** Switching keys *)
Lemma wtab_len_eq n m f : n = m -> wtab n f = wtab m f.
Proof. intros ->. reflexivity. Qed.
Lemma swk_coef_ok LOGQ s x : 1 <= LOGQ -> Z.abs s < 2 ^ 31 -> length x = Z.to_nat (len (2 * LOGQ)) ->
  swk_coef LOGQ (rep (2 * LOGQ) (2 ^ LOGQ)) s x = Ok (rep (2 * LOGQ) (2 ^ LOGQ * s)).
Proof.
  intros HQ Hs Hx. unfold swk_coef. destruct (Z.eqb_spec s 0) as [->|Hne].
  - rewrite zq_setzero_ok by (auto; lia). rewrite Z.mul_0_r. reflexivity.
  - assert (Ea : (if s >? 0 then Ok s else int_ (- s)) = Ok (Z.abs s)).
    { destruct (Z.gtb_spec s 0); [f_equal; lia|]. rewrite int_ok by lia. f_equal. lia. }
    rewrite Ea. cbn [bind]. rewrite zq_copy_rep by (auto; lia). cbn [bind].
    rewrite (while_big_closed (fun k => (rep (2 * LOGQ) (2 ^ LOGQ * (1 + Z.of_nat k)), Z.abs s - 1 - Z.of_nat k)) (Z.to_nat (Z.abs s - 1))).
    + cbn [bind]. rewrite Z2Nat.id by lia. replace (1 + (Z.abs s - 1)) with (Z.abs s) by lia.
      destruct (Z.ltb_spec s 0).
      * rewrite zq_negate_rep by lia. do 2 apply f_equal. lia.
      * do 2 apply f_equal. lia.
    + apply f_equal2; [f_equal; lia|lia].
    + intros i Hi. split; [f_equal; apply Z.gtb_lt; lia|]. rewrite zq_add_rep by lia. cbn [bind]. apply f_equal.
      apply f_equal2; [f_equal|]; lia.
    + f_equal. rewrite Z.gtb_ltb. apply Z.ltb_ge. lia.
    + lia.
Qed.

Lemma swkgen_ok LOGQ N RM rnd s_fr s_to swk pos : 1 <= LOGQ -> 0 <= N -> (forall k, 0 <= rnd k) ->
  (forall i, 0 <= i < N -> Z.abs (s_fr i) < 2 ^ 31) -> objS (2 * LOGQ) N swk ->
  let u := unif (2 * LOGQ) RM rnd pos in
  let e := err rnd (at_ pos (5 * (N * len (2 * LOGQ)))) in
  swkgen LOGQ N RM rnd (wtab N s_fr) (wtab N s_to) swk pos =
  Ok (repS (2 * LOGQ) N (fun i => e i + 2 ^ LOGQ * s_fr i - negconv N (fun k => tern (s_to k)) u i) u, enc_end (2 * LOGQ) N pos).
Proof.
  intros HQ HN Hr Hs Ho u e. unfold swkgen. pose proof (len_bounds LOGQ HQ) as Hl.
  rewrite zq_setzero_ok by (auto using zq_new_length). cbn [bind]. unfold raw at 1. rewrite wr_wtab by lia. cbn [bind].
  rewrite raw_low by (unfold is_word, W; lia).
  assert (E1 : raw (len LOGQ) 1 = rep LOGQ 1).
  { unfold rep. rewrite Z.mod_small; [reflexivity|]. assert (2 ^ 1 <= 2 ^ LOGQ) by (apply Z.pow_le_mono_r; lia). lia. }
  rewrite E1. rewrite (Z.mul_comm LOGQ 2). rewrite zq_shift_left_rep by (auto using zq_new_length; lia). cbn [bind].
  replace (1 * 2 ^ (2 * LOGQ - LOGQ)) with (2 ^ LOGQ) by (rewrite Z.mul_1_l; f_equal; lia).
  match goal with |- bind ?x _ = _ => assert (EP : x = Ok (repP (2 * LOGQ) N (fun i => 2 ^ LOGQ * s_fr i))) end.
  { unfold rq_new. rewrite repeat_tab. apply (pupd_loop N _ (fun i => swk_coef LOGQ (rep (2 * LOGQ) (2 ^ LOGQ)) (s_fr i))); auto.
    - intros i D Hi. rewrite rd_wtab by auto. reflexivity.
    - intros i Hi. apply swk_coef_ok; auto. apply zq_new_length. }
  rewrite EP. cbn [bind]. apply enc_ok; auto. lia.
Qed.

(** ** Rescaling *)
Definition rnd_shift (fr to v : Z) : Z := if fr =? to then v else (v + 2 ^ (fr - to - 1)) / 2 ^ (fr - to).

Lemma RS_ok fr to N a b D : 1 <= to <= fr -> 0 <= N -> objS to N D ->
  RS fr to N (repS fr N a b) D = Ok (repS to N (fun i => rnd_shift fr to (a i)) (fun i => rnd_shift fr to (b i))).
Proof.
  intros Hf HN [H0 H1]. destruct D as [D0 D1]. cbn [fst snd] in *. destruct H0 as (d0 & -> & Hd0), H1 as (d1 & -> & Hd1).
  unfold RS, repS. cbn [fst snd].
  rewrite (for_closed _ (fun i => (tab N (fun k => if k <? i then rep to (rnd_shift fr to (a k)) else d0 k),
       tab N (fun k => if k <? i then rep to (rnd_shift fr to (b k)) else d1 k))) _ _ _
     (repP to N (fun i => rnd_shift fr to (a i)), repP to N (fun i => rnd_shift fr to (b i)))); auto.
  - apply f_equal2; apply tab_ext; intros k Hk; zc; auto.
  - apply f_equal2; apply tab_ext; intros k Hk; zc; auto.
  - intros i Hi. unfold repP. rewrite lget_tab by auto. cbn [bind].
    rewrite (pupd_tab N _ i _ (rep to (rnd_shift fr to (a i)))); auto.
    2: { destruct (Z.ltb_spec i i); [lia|]. apply zq_shift_right_rep; auto. }
    cbn [bind]. rewrite lget_tab by auto. cbn [bind].
    rewrite (pupd_tab N _ i _ (rep to (rnd_shift fr to (b i)))); auto.
    2: { destruct (Z.ltb_spec i i); [lia|]. apply zq_shift_right_rep; auto. }
    cbn [bind]. apply f_equal. apply f_equal2; apply tab_ext; intros k Hk; cmp3 k i.
Qed.

Lemma rnd_shift_err fr to v : 1 <= to <= fr ->
  Z.abs (2 ^ (fr - to) * rnd_shift fr to v - v) <= 2 ^ (fr - to - 1).
Proof.
  intros H. unfold rnd_shift. destruct (Z.eqb_spec fr to) as [->|Hne].
  - rewrite Z.sub_diag. change (2 ^ 0) with 1. change (2 ^ (0 - 1)) with 0. rewrite Z.mul_1_l, Z.sub_diag. reflexivity.
  - set (d := fr - to) in *. pose proof (pow2_half d ltac:(lia)). pose proof (pow2_pos (d - 1) ltac:(lia)).
    pose proof (Z.div_mod (v + 2 ^ (d - 1)) (2 ^ d) ltac:(lia)). pose proof (Z.mod_pos_bound (v + 2 ^ (d - 1)) (2 ^ d) ltac:(lia)).
    lia.
Qed.

(** ** Key switching *)
Lemma ks_widen_ok LOGQ N a : 1 <= LOGQ -> 0 <= N ->
  ks_widen LOGQ N (repP LOGQ N a) = Ok (repP (2 * LOGQ) N (fun i => a i mod 2 ^ LOGQ)).
Proof.
  intros HQ HN. pose proof (len_bounds LOGQ HQ) as Hl. pose proof (len_bounds (2 * LOGQ) ltac:(lia)) as Hl2.
  unfold ks_widen, rq_new. rewrite repeat_tab.
  apply (pupd_loop N _ (fun i x => for_ 0 (len (2 * LOGQ)) (fun j x => if j <? len LOGQ then w <- rd (rep LOGQ (a i)) j ;; wr x j w else wr x j 0) x)); auto.
  - intros i D Hi. unfold repP. rewrite lget_tab by auto. reflexivity.
  - intros i Hi. pose proof (pow2_pos LOGQ ltac:(lia)) as Hp. pose proof (Z.mod_pos_bound (a i) (2 ^ LOGQ) ltac:(lia)) as Hm.
    assert (Hle : len LOGQ <= len (2 * LOGQ)) by lia.
    unfold rep. rewrite (Z.mod_small (a i mod 2 ^ LOGQ) (2 ^ (2 * LOGQ))).
    2: { split; [lia|]. assert (2 ^ LOGQ <= 2 ^ (2 * LOGQ)) by (apply Z.pow_le_mono_r; lia). lia. }
    set (v := a i mod 2 ^ LOGQ) in *.
    unfold zq_new. rewrite fresh_tab.
    rewrite (for_closed _ (fun j => tab (len (2 * LOGQ)) (fun k => if k <? j then Some (dg v k) else None)) _ _ _ (raw (len (2 * LOGQ)) v)); auto.
    + lia.
    + apply tab_ext. intros k Hk. zc; auto.
    + apply tab_ext. intros k Hk. zc; auto.
    + intros j Hj. assert (E0 : len LOGQ <= j -> dg v j = 0).
      { intros Hlj. unfold dg. rewrite Z.div_small; [reflexivity|]. split; [lia|].
        assert (2 ^ LOGQ <= Wp j) by (unfold Wp; apply Z.pow_le_mono_r; lia). lia. }
      destruct (Z.ltb_spec j (len LOGQ)).
      * rewrite rd_raw by lia. cbn [bind]. rewrite wr_tab by auto. f_equal. apply tab_ext. intros k Hk. zc; auto. subst. auto.
      * rewrite wr_tab by auto. f_equal. apply tab_ext. intros k Hk. zc; auto. subst. rewrite E0; auto.
Qed.

Lemma ks_ok LOGQ (Ln : nat) b a c0 c1 : 1 <= LOGQ -> conv_width (2 * LOGQ) -> (1 <= Ln <= 17)%nat ->
  let N := 2 ^ Z.of_nat Ln in
  let d := fun i => c1 i mod 2 ^ LOGQ in
  let r := fun x i => rnd_shift (2 * LOGQ) LOGQ (negconv N x d i) in
  ks LOGQ N (repS (2 * LOGQ) N b a) (repS LOGQ N c0 c1) = Ok (repS LOGQ N (fun i => c0 i + r b i) (fun i => 0 + r a i)).
Proof.
  intros HQ HW HL N d r. assert (HN : 0 <= N) by (apply Z.pow_nonneg; lia).
  assert (EM : forall x y z, sq_mul (2 * LOGQ) N (repS (2 * LOGQ) N x y) (repP (2 * LOGQ) N z) =
      Ok (repS (2 * LOGQ) N (negconv N x z) (negconv N y z))) by (intros; apply sq_mul_rep; auto).
  clearbody N. unfold ks.
  rewrite sq_copy_rep by (auto using objS_new; lia). cbn [bind].
  replace (snd (repS LOGQ N c0 c1)) with (repP LOGQ N c1) by reflexivity.
  replace (fst (repS LOGQ N c0 c1)) with (repP LOGQ N c0) by reflexivity.
  rewrite ks_widen_ok by auto. cbn [bind].
  rewrite EM. cbn [bind]. rewrite (Z.mul_comm LOGQ 2).
  rewrite RS_ok by (auto using objS_new; lia). cbn [bind].
  match goal with |- bind ?x _ = _ => assert (E : x = rq_setzero LOGQ N (repP LOGQ N c1)) by reflexivity; rewrite E end.
  rewrite rq_setzero_ok by (auto using objP_rep). cbn [bind].
  change (repP LOGQ N c0, repP LOGQ N (fun _ => 0)) with (repS LOGQ N c0 (fun _ => 0)).
  rewrite sq_add_rep by auto. reflexivity.
Qed.

Lemma Mul_ok LOGQ (Ln : nat) a b c d e f ct3 : conv_width LOGQ -> conv_width (2 * LOGQ) -> (1 <= Ln <= 17)%nat ->
  let N := 2 ^ Z.of_nat Ln in
  let d2 := fun i => cent LOGQ (negconv N b d i) in
  let r := fun x i => rnd_shift (2 * LOGQ) LOGQ (negconv N x d2 i) in
  objS LOGQ N ct3 ->
  Mul LOGQ N (repS LOGQ N a b) (repS LOGQ N c d) (repS (2 * LOGQ) N e f) ct3 =
  Ok (repS LOGQ N (fun i => r e i + negconv N a c i) (fun i => r f i + (negconv N b c i + negconv N a d i))).
Proof.
  intros HW HW2 HL N d2 r Ho. assert (HQ : 1 <= LOGQ) by (unfold conv_width in HW; lia). assert (HN : 0 <= N) by (apply Z.pow_nonneg; lia).
  assert (EM : forall x y z, sq_mul (2 * LOGQ) N (repS (2 * LOGQ) N x y) (repP (2 * LOGQ) N z) =
      Ok (repS (2 * LOGQ) N (negconv N x z) (negconv N y z))) by (intros; apply sq_mul_rep; auto).
  unfold Mul.
  change (fst (repS LOGQ N ?x ?y)) with (repP LOGQ N x). change (snd (repS LOGQ N ?x ?y)) with (repP LOGQ N y).
  assert (EC : forall x y D, objP LOGQ N D -> conv_poly LOGQ N (repP LOGQ N x) (repP LOGQ N y) D = Ok (repP LOGQ N (negconv N x y)))
    by (intros; apply conv_poly_ok; auto).
  rewrite !EC by apply objP_new. cbn [bind]. rewrite rq_resize_rep by (auto using objP_new; lia). cbn [bind].
  rewrite sq_copy_rep by (auto using objS_new; lia). cbn [bind].
  rewrite EM. cbn [bind].
  rewrite RS_ok by (auto; lia). cbn [bind]. unfold sq_new.
  rewrite !EC by apply objP_new. cbn [bind]. rewrite rq_add_rep by auto. cbn [bind].
  rewrite EC by apply objP_rep. cbn [bind].
  match goal with |- sq_add _ _ _ (repP _ _ ?x, repP _ _ ?y) = _ => change (repP LOGQ N x, repP LOGQ N y) with (repS LOGQ N x y) end.
  rewrite sq_add_rep by auto. reflexivity.
Qed.
