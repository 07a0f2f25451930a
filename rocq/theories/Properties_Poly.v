(** Properties C60-C62: Chebyshev coefficients and the evaluation of polynomials on ciphertexts. *)
From Coq Require Import ZArith List Bool Lia Reals Lra Ring Ratan.
From Verif Require Import Base BaseFacts Sums ZQ ZQFacts RQ RQFacts Conv Rot Core CoreFacts Util UtilFacts GSum Matrix MatrixFacts DFT DFTTheory DFTFacts FFTFacts
  SpecZQ SpecPoly SpecPolyFacts SpecScheme SpecMat SpecDFT SpecEnc SlotFacts Encode EncodeFacts PolyRing PolyCong Noise Properties_DFT Properties_Conv Properties_Core Properties_Plain LinTrans LinTransFacts LinSlots BootSlots
  SpecCheb Poly ChebFacts SpecEval EvalFacts EvalPoly.
Import ListNotations.
Open Scope Z_scope.
Add Ring RCpp : HR.

Lemma rlist_gtab (us : list R) k : length us = (2 ^ k)%nat -> map Some us = gtab (2 ^ Z.of_nat k) (rcoef us).
Proof.
  intros H. rewrite (list_tab 0%R us) at 1. rewrite H. unfold gtab, tab. rewrite map_map.
  replace (Z.of_nat (2 ^ k)) with (2 ^ Z.of_nat k) by (rewrite Nat2Z.inj_pow; reflexivity). reflexivity.
Qed.
Lemma gtab_rlist M (f : Z -> R) : gtab M f = map Some (map (fun k => f (Z.of_nat k)) (seq 0 (Z.to_nat M))).
Proof. unfold gtab, tab. rewrite map_map. reflexivity. Qed.

(** ** C60: from Chebyshev coefficients to coefficients of products *)
Theorem C60_convert : forall k fuel cs u, (2 <= k)%nat -> (k <= fuel)%nat -> length cs = (2 ^ k)%nat -> cells (2 ^ Z.of_nat k) u ->
  exists us, convert_frc_tou fuel (map Some cs) u 0 (2 ^ Z.of_nat k) = Ok (map Some us) /\ length us = (2 ^ k)%nat /\
    forall x, product_value k (rcoef us) x = cheb_value k (rcoef cs) x.
Proof.
  intros k fuel cs u Hk Hf Hc Hu. destruct (arr_tab None u _ Hu) as [g ->]. rewrite (rlist_gtab cs k Hc).
  rewrite (convert_ok k Hk fuel _ _ 0 (2 ^ Z.of_nat k) g) by (auto; lia).
  set (us := map (fun i => conv_u k (rcoef cs) (Z.of_nat i)) (seq 0 (Z.to_nat (2 ^ Z.of_nat k)))).
  assert (E : Z.to_nat (2 ^ Z.of_nat k) = (2 ^ k)%nat).
  { rewrite Z2Nat.inj_pow by lia. rewrite Nat2Z.id. reflexivity. }
  exists us. split; [|split].
  - f_equal. unfold us. rewrite <- gtab_rlist. apply tab_ext. intros j Hj. unfold patched. rewrite Z.add_0_l, Z.sub_0_r.
    destruct (Z.leb_spec 0 j), (Z.ltb_spec j (2 ^ Z.of_nat k)); try lia. reflexivity.
  - unfold us. rewrite map_length, seq_length. exact E.
  - intros x. rewrite <- (conv_u_value k Hk). apply product_value_ext. intros n Hn. unfold rcoef, us.
    rewrite (nth_indep _ 0%R (conv_u k (fun n => nth (Z.to_nat n) cs 0%R) (Z.of_nat 0))) by (rewrite map_length, seq_length; lia).
    rewrite (map_nth (fun i => conv_u k _ (Z.of_nat i))). rewrite seq_nth by lia. rewrite Nat.add_0_l, Z2Nat.id by lia. reflexivity.
Qed.

(** convert_frc_tou of fewer than four coefficients does not return. *)
Theorem C60_small : forall fuel N cs u off, 0 <= N < 4 -> N <= Z.of_nat (length cs) -> convert_frc_tou fuel (map Some cs) u off N = Diverge.
Proof.
  assert (G : forall fuel N M c g u off, 0 <= N < 4 -> N <= M -> c = gtab M g -> convert_frc_tou fuel c u off N = Diverge).
  { induction fuel as [|fuel IH]; [reflexivity|]. intros N M c g u off HN HM ->. cbn [convert_frc_tou]. destruct (Z.eqb_spec N 4); [lia|]. cbv zeta.
    set (H := Z.quot N 2). assert (HH : 0 <= H <= 1 /\ H + H <= N).
    { unfold H. rewrite Z.quot_div_nonneg by lia. pose proof (Z.div_mod N 2 ltac:(lia)). pose proof (Z.mod_pos_bound N 2 ltac:(lia)). lia. }
    rewrite !gfresh_tab. rewrite (fill_gtab _ _ _ g); [|lia|]. 2: { intros i g' Hi. rewrite grd_gtab by lia. reflexivity. }
    cbn [bind]. rewrite (fill_gtab _ _ _ (fun i => g (i + H))); [|lia|]. 2: { intros i g' Hi. rewrite grd_gtab by lia. reflexivity. }
    cbn [bind]. rewrite for_nil by lia. cbn [bind]. rewrite (IH H H _ g) by (auto; lia). reflexivity. }
  intros fuel N cs u off HN Hc. apply (G fuel N (Z.of_nat (length cs)) _ (rcoef cs)); auto.
  rewrite (list_tab 0%R cs) at 1. unfold gtab, tab. rewrite map_map. reflexivity.
Qed.

(** T_0+...+T_7 *)
Example C60_case : exists us, convert_frc_tou 3 (map Some (repeat 1%R 8)) (gfresh R 8) 0 8 = Ok (map Some us) /\ forall x, product_value 3 (rcoef us) x = cheb_value 3 (rcoef (repeat 1%R 8)) x.
Proof. destruct (C60_convert 3 3 (repeat 1%R 8) (gfresh R 8)) as (us & E & _ & H); [lia|lia|reflexivity|reflexivity|]. exists us. split; auto. Qed.


(** ** C61: which coefficients the functions of poly.h can take *)
Lemma for_undef {S} (body : Z -> S -> res S) (P : S -> Prop) lo hi s n : lo <= n < hi -> P s ->
  (forall i s, lo <= i < hi -> P s -> body i s = Undef \/ exists s', body i s = Ok s' /\ P s') -> (forall s, P s -> body n s = Undef) -> for_ lo hi body s = Undef.
Proof.
  intros Hn HP Hs Hb. unfold for_. remember (Z.to_nat (hi - lo)) as k eqn:Ek. revert lo s Hn HP Hs Ek. induction k as [|k IH]; intros lo s Hn HP Hs Ek; [lia|].
  cbn [iter_up]. destruct (Z.eq_dec lo n) as [->|Hne]; [rewrite Hb by auto; reflexivity|].
  destruct (Hs lo s ltac:(lia) HP) as [->|(s' & -> & HP')]; [reflexivity|]. cbn [bind]. apply IH; auto; try lia. intros; apply Hs; auto; lia.
Qed.
(** What a conversion of x*2^LOGDELTA (of its absolute value in eval_poly_deg31 and later) to uint64_t accepts *)
Definition accepted (sg : bool) (LD : Z) (x : R) : Prop :=
  if sg then (Rabs x * IZR (2 ^ LD) < IZR (2 ^ 64))%R else (-1 < x * IZR (2 ^ LD) < IZR (2 ^ 64))%R.
Lemma r_to_u64_big y : (IZR (2 ^ 64) <= y)%R -> r_to_u64 y = Undef.
Proof.
  intros Hy. unfold r_to_u64. fold (trunc y). unfold to_u64. rewrite (proj2 (Z.ltb_ge (trunc y) W)); [rewrite andb_false_r; reflexivity|].
  assert (0 <= IZR (2 ^ 64))%R by (apply IZR_le; lia). unfold trunc. destruct (Rlt_dec y 0); [lra|]. pose proof (Int_part_spec y).
  assert (2 ^ 64 - 1 < Int_part y); [apply lt_IZR; rewrite minus_IZR; lra|unfold W; lia].
Qed.
Lemma L0_cases sg Q N LD n x : 1 <= Q -> 1 <= N -> 1 <= LD <= 63 ->
  (~ accepted sg LD x -> L0_entry sg Q N LD n x = Undef) /\ (L0_entry sg Q N LD n x = Undef \/ exists P, L0_entry sg Q N LD n x = Ok P).
Proof.
  intros HQ HN HLD. assert (HD := HDelta LD HLD). pose proof (pow_LD LD HLD).
  set (y := ((if sg then Rabs x else x) * IZR (2 ^ LD))%R).
  assert (Ho : L0_entry sg Q N LD n x = Undef \/ (accepted sg LD x /\ exists P, L0_entry sg Q N LD n x = Ok P)).
  { unfold L0_entry. rewrite one_shl_ok by auto. cbn [bind]. rewrite rq_setzero_ok by (try lia; apply objP_new). cbn [bind]. fold y.
    destruct (Rle_dec y (-1)) as [Hy|Hy]; [left; rewrite r_to_u64_bad by auto; reflexivity|].
    destruct (Rlt_dec y (IZR (2 ^ 64))) as [Hy2|Hy2]; [|left; rewrite r_to_u64_big by lra; reflexivity].
    right. split; [unfold accepted; destruct sg; unfold y in *; lra|].
    destruct (r_to_u64_ok y ltac:(lra) ltac:(lra)) as [-> Hw]. cbn [bind].
    unfold repP at 1. rewrite (pupd_tab N _ _ _ (raw (len Q) (trunc y))); [|lia|apply first_word0; auto]. cbn [bind].
    destruct (n mod 2 =? 0).
    - rewrite (pupd_tab N _ _ _ (rep Q (trunc y * 2 ^ LD))); [|lia|rewrite Z.eqb_refl; apply zq_mul_word_raw; auto; unfold is_word, W; lia]. cbn [bind].
      destruct sg; [|eauto]. destruct (Rlt_dec x 0); [|eauto]. rewrite (pupd_tab N _ _ _ (rep Q (- (trunc y * 2 ^ LD)))); [eauto|lia|rewrite Z.eqb_refl; apply zq_negate_rep; auto].
    - cbn [bind]. destruct sg; [|eauto]. destruct (Rlt_dec x 0); [|eauto]. rewrite (pupd_tab N _ _ _ (rep Q (- trunc y))); [eauto|lia|rewrite Z.eqb_refl; apply zq_negate_raw; auto]. }
  split; [|tauto]. intros H1. destruct Ho as [Ho|[Ho _]]; tauto.
Qed.

Lemma eval_poly_undefined sg Q N LD k us ct evk1 evks p : 1 <= Q -> 1 <= N -> 1 <= LD <= 63 -> length us = (2 ^ S k)%nat -> Exists (fun x => ~ accepted sg LD x) us ->
  eval_poly sg Q N LD (2 ^ Z.of_nat k) (map Some us) ct evk1 evks p = Undef.
Proof.
  intros HQ HN HLD Hl Hex. unfold eval_poly. replace (2 * 2 ^ Z.of_nat k) with (2 ^ Z.of_nat (S k)) by (rewrite Nat2Z.inj_succ, Z.pow_succ_r by lia; reflexivity).
  set (cnt := 2 ^ Z.of_nat (S k)). assert (Hc : cnt = Z.of_nat (length us)) by (rewrite Hl, Nat2Z.inj_pow; reflexivity).
  apply Exists_exists in Hex. destruct Hex as (x & Hin & Hx). apply In_nth_error in Hin. destruct Hin as [m Hm]. assert (Hml : (m < length us)%nat) by (apply nth_error_Some; congruence).
  rewrite (rlist_gtab us (S k) Hl). fold cnt.
  assert (E : L0_list sg Q N LD cnt (gtab cnt (rcoef us)) = Undef); [|rewrite E; reflexivity].
  unfold L0_list. apply (for_undef _ (fun L => length L = Z.to_nat cnt) 0 cnt _ (Z.of_nat m)); [lia|apply repeat_length| |].
  - intros i L Hi HL'. rewrite grd_gtab by lia. cbn [bind]. destruct (L0_cases sg Q N LD i (rcoef us i) HQ HN HLD) as [_ [->|[P ->]]]; [left; reflexivity|right]. cbn [bind].
    destruct (arr_tab (rq_new Q N) L cnt HL') as [g ->]. rewrite lset_tab by lia. eexists. split; [reflexivity|]. apply tab_length.
  - intros L HL'. rewrite grd_gtab by lia. cbn [bind]. replace (rcoef us (Z.of_nat m)) with x by (unfold rcoef; rewrite Nat2Z.id; symmetry; apply nth_error_nth; auto).
    rewrite (proj1 (L0_cases sg Q N LD (Z.of_nat m) x HQ HN HLD) Hx). reflexivity.
Qed.

(** Every call with a coefficient u such that u*2^LOGDELTA is -1 or less, or 2^64 or more, is undefined. *)
Theorem C61_undefined : forall Q N LD, 1 <= Q -> 1 <= N -> 1 <= LD <= 63 ->
  (forall us ct e1 e2 p, length us = 4%nat -> Exists (fun x => ~ accepted false LD x) us -> eval_poly_deg3 Q N LD (map Some us) ct e1 e2 p = Undef) /\
  (forall us ct e1 e2 e3 p, length us = 8%nat -> Exists (fun x => ~ accepted false LD x) us -> eval_poly_deg7 Q N LD (map Some us) ct e1 e2 e3 p = Undef) /\
  (forall us ct e1 e2 e3 e4 p, length us = 16%nat -> Exists (fun x => ~ accepted false LD x) us -> eval_poly_deg15 Q N LD (map Some us) ct e1 e2 e3 e4 p = Undef) /\
  (forall us ct e1 e2 e3 e4 e5 p, length us = 32%nat -> Exists (fun x => ~ accepted true LD x) us -> eval_poly_deg31 Q N LD (map Some us) ct e1 e2 e3 e4 e5 p = Undef) /\
  (forall us ct e1 e2 e3 e4 e5 e6 p, length us = 64%nat -> Exists (fun x => ~ accepted true LD x) us -> eval_poly_deg63 Q N LD (map Some us) ct e1 e2 e3 e4 e5 e6 p = Undef) /\
  (forall us ct e1 e2 e3 e4 e5 e6 e7 p, length us = 128%nat -> Exists (fun x => ~ accepted true LD x) us -> eval_poly_deg127 Q N LD (map Some us) ct e1 e2 e3 e4 e5 e6 e7 p = Undef).
Proof.
  intros Q N LD HQ HN HLD. repeat split; intros.
  - apply (eval_poly_undefined false Q N LD 1); auto.
  - apply (eval_poly_undefined false Q N LD 2); auto.
  - apply (eval_poly_undefined false Q N LD 3); auto.
  - apply (eval_poly_undefined true Q N LD 4); auto.
  - apply (eval_poly_undefined true Q N LD 5); auto.
  - apply (eval_poly_undefined true Q N LD 6); auto.
Qed.

(** The coefficients of T_3 in the basis of products are 0, -1, 0, 2. *)
Theorem C61_defined_refuted : exists us : list R, length us = 4%nat /\ (forall x, product_value 2 (rcoef us) x = cheb x 3) /\
  forall Q N LD ct e1 e2 p, 1 <= Q -> 1 <= N -> 1 <= LD <= 63 -> eval_poly_deg3 Q N LD (map Some us) ct e1 e2 p = Undef.
Proof.
  exists [0; -1; 0; 2]%R. split; [reflexivity|]. split.
  - intros x. rewrite !product_halves. assert (H1 : forall v y, product_value 0 v y = real (v 0)).
    { intros v y. unfold product_value. change (2 ^ Z.of_nat 0) with 1. rewrite (gsum_single HC 1 0); [|lia|intros; lia]. cbn [bit_product]. ring. }
    rewrite !H1. change (rcoef _ 0) with 0%R. change (rcoef _ (2 ^ Z.of_nat 0 + 0)) with (-1)%R. change (rcoef _ (2 ^ Z.of_nat 1 + 0)) with 0%R.
    change (rcoef _ (2 ^ Z.of_nat 1 + (2 ^ Z.of_nat 0 + 0))) with 2%R. cbn [Nat.pow Nat.mul Nat.add]. rewrite !cheb_SS. cbn [cheb].
    replace (real 0) with (0%num : CC) by (apply RC_eq; reflexivity). replace (real (-1)) with (0 - 1 : CC)%num by (apply RC_eq; cbn; ring). rewrite real_2. ring.
  - intros Q N LD ct e1 e2 p HQ HN HLD. apply C61_undefined; auto. apply Exists_cons_tl, Exists_cons_hd. unfold accepted. pose proof (HDelta LD HLD). lra.
Qed.

(** ** C62: evaluation on ciphertexts *)
(** [keys] are evaluation keys for s*s at the moduli Q, Q-LD, Q-2*LD, ...; [ct] carries slots x within err at scale
    2^LD; |T_(2^b)(x)| <= M b; the coefficients are at most U in absolute value (and nonnegative up to rounding for the
    functions without sign handling). *)
Record eval_setting (sg : bool) (LOGN LD Q : Z) (s : Z -> Z) (keys : list sq) (M : nat -> R) (U err : R) (us : list R) (x : Z -> CC) (ct p : sq) : Prop := {
  es_N : 1 <= LOGN <= 17;
  es_LD : 1 <= LD <= 63;
  es_Q : LD * Z.of_nat (length keys) < Q;
  es_widths : forall i, 0 <= i < Z.of_nat (length keys) -> widths (Q - LD * i) /\ widths (2 * (Q - LD * i));
  es_keys : forall i evk, nth_error keys i = Some evk -> switching_key (Q - LD * Z.of_nat i) (2 ^ LOGN) evk (negconv (2 ^ LOGN) s s) s;
  es_us : Forall (fun u => (Rabs u <= U)%R /\ (sg = false -> (-1 < u * IZR (2 ^ LD))%R)) us;
  es_U : (U * IZR (2 ^ LD) < IZR (2 ^ 64))%R /\ (U * IZR (2 ^ LD) < IZR (2 ^ Q))%R;
  es_M : forall b, (b < length keys)%nat -> forall j, 0 <= j < 2 ^ LOGN / 2 -> (modulus (cheb (x j) (2 ^ b)) <= M b)%R;
  es_ct : carries Q (2 ^ LOGN) s ct (IZR (2 ^ LD)) x err;
  es_p : object2 (Q - LD * Z.of_nat (length keys)) (2 ^ LOGN) p }.

Lemma chain_of LOGN LD s keys : forall Q, 1 <= LD -> LD * Z.of_nat (length keys) < Q ->
  (forall i, 0 <= i < Z.of_nat (length keys) -> widths (Q - LD * i) /\ widths (2 * (Q - LD * i))) ->
  (forall i evk, nth_error keys i = Some evk -> switching_key (Q - LD * Z.of_nat i) (2 ^ LOGN) evk (negconv (2 ^ LOGN) s s) s) -> chain LOGN LD s Q keys.
Proof.
  induction keys as [|evk r IH]; intros Q HLD HQ Hw Hk; [exact I|]. cbn [chain length] in *.
  pose proof (Hw 0 ltac:(lia)) as H0. pose proof (Hk 0%nat evk eq_refl) as K0. change (Z.of_nat 0) with 0 in K0. rewrite Z.mul_0_r, Z.sub_0_r in H0, K0.
  split; [nia|]. split; [tauto|]. split; [tauto|]. split; [auto|]. apply IH; try lia.
  - intros i Hi. replace (Q - LD - LD * i) with (Q - LD * (i + 1)) by lia. apply Hw. lia.
  - intros i k Hi. replace (Q - LD - LD * Z.of_nat i) with (Q - LD * Z.of_nat (S i)) by lia. apply Hk. exact Hi.
Qed.

Lemma eval_poly_holds sg LOGN LD Q s evk1 evks M U err us x ct p K : eval_setting sg LOGN LD Q s (evk1 :: evks) M U err us x ct p ->
  length evks = K -> (1 <= K)%nat -> length us = (2 ^ S K)%nat ->
  exists p', eval_poly sg Q (2 ^ LOGN) LD (2 ^ Z.of_nat K) (map Some us) ct evk1 evks p = Ok p' /\
    carries (Q - LD * Z.of_nat (S K)) (2 ^ LOGN) s p' (IZR (2 ^ LD)) (fun j => product_value (S K) (rcoef us) (x j))
      (poly_error (2 ^ LOGN) (norm1 (2 ^ LOGN) s) (IZR (2 ^ LD)) M U err (S K)).
Proof.
  intros [] HK HK1 Hl. rewrite (rlist_gtab us (S K) Hl). cbn [length] in *. subst K.
  apply eval_poly_ok; auto; try tauto.
  - apply chain_of; cbn [length]; auto; lia.
  - intros b Hb. apply es_M0. lia.
  - intros n Hn. rewrite Forall_forall in es_us0. apply es_us0. unfold rcoef. apply nth_In. rewrite Hl.
    replace (2 ^ S (length evks))%nat with (Z.to_nat (2 ^ Z.of_nat (S (length evks)))) by (rewrite Z2Nat.inj_pow by lia; rewrite Nat2Z.id; reflexivity). lia.
Qed.

Theorem C62_deg3 : forall LOGN LD Q s e1 e2 M U err us x ct p, eval_setting false LOGN LD Q s [e1; e2] M U err us x ct p -> length us = 4%nat ->
  exists p', eval_poly_deg3 Q (2 ^ LOGN) LD (map Some us) ct e1 e2 p = Ok p' /\
    carries (Q - LD * 2) (2 ^ LOGN) s p' (IZR (2 ^ LD)) (fun j => product_value 2 (rcoef us) (x j))
      (poly_error (2 ^ LOGN) (norm1 (2 ^ LOGN) s) (IZR (2 ^ LD)) M U err 2).
Proof. intros. apply (eval_poly_holds false LOGN LD Q s e1 [e2] M U err us x ct p 1); auto. Qed.
Theorem C62_deg7 : forall LOGN LD Q s e1 e2 e3 M U err us x ct p, eval_setting false LOGN LD Q s [e1; e2; e3] M U err us x ct p -> length us = 8%nat ->
  exists p', eval_poly_deg7 Q (2 ^ LOGN) LD (map Some us) ct e1 e2 e3 p = Ok p' /\
    carries (Q - LD * 3) (2 ^ LOGN) s p' (IZR (2 ^ LD)) (fun j => product_value 3 (rcoef us) (x j))
      (poly_error (2 ^ LOGN) (norm1 (2 ^ LOGN) s) (IZR (2 ^ LD)) M U err 3).
Proof. intros. apply (eval_poly_holds false LOGN LD Q s e1 [e2; e3] M U err us x ct p 2); auto. Qed.
Theorem C62_deg15 : forall LOGN LD Q s e1 e2 e3 e4 M U err us x ct p, eval_setting false LOGN LD Q s [e1; e2; e3; e4] M U err us x ct p -> length us = 16%nat ->
  exists p', eval_poly_deg15 Q (2 ^ LOGN) LD (map Some us) ct e1 e2 e3 e4 p = Ok p' /\
    carries (Q - LD * 4) (2 ^ LOGN) s p' (IZR (2 ^ LD)) (fun j => product_value 4 (rcoef us) (x j))
      (poly_error (2 ^ LOGN) (norm1 (2 ^ LOGN) s) (IZR (2 ^ LD)) M U err 4).
Proof. intros. apply (eval_poly_holds false LOGN LD Q s e1 [e2; e3; e4] M U err us x ct p 3); auto. Qed.
Theorem C62_deg31 : forall LOGN LD Q s e1 e2 e3 e4 e5 M U err us x ct p, eval_setting true LOGN LD Q s [e1; e2; e3; e4; e5] M U err us x ct p -> length us = 32%nat ->
  exists p', eval_poly_deg31 Q (2 ^ LOGN) LD (map Some us) ct e1 e2 e3 e4 e5 p = Ok p' /\
    carries (Q - LD * 5) (2 ^ LOGN) s p' (IZR (2 ^ LD)) (fun j => product_value 5 (rcoef us) (x j))
      (poly_error (2 ^ LOGN) (norm1 (2 ^ LOGN) s) (IZR (2 ^ LD)) M U err 5).
Proof. intros. apply (eval_poly_holds true LOGN LD Q s e1 [e2; e3; e4; e5] M U err us x ct p 4); auto. Qed.
Theorem C62_deg63 : forall LOGN LD Q s e1 e2 e3 e4 e5 e6 M U err us x ct p, eval_setting true LOGN LD Q s [e1; e2; e3; e4; e5; e6] M U err us x ct p -> length us = 64%nat ->
  exists p', eval_poly_deg63 Q (2 ^ LOGN) LD (map Some us) ct e1 e2 e3 e4 e5 e6 p = Ok p' /\
    carries (Q - LD * 6) (2 ^ LOGN) s p' (IZR (2 ^ LD)) (fun j => product_value 6 (rcoef us) (x j))
      (poly_error (2 ^ LOGN) (norm1 (2 ^ LOGN) s) (IZR (2 ^ LD)) M U err 6).
Proof. intros. apply (eval_poly_holds true LOGN LD Q s e1 [e2; e3; e4; e5; e6] M U err us x ct p 5); auto. Qed.
Theorem C62_deg127 : forall LOGN LD Q s e1 e2 e3 e4 e5 e6 e7 M U err us x ct p, eval_setting true LOGN LD Q s [e1; e2; e3; e4; e5; e6; e7] M U err us x ct p -> length us = 128%nat ->
  exists p', eval_poly_deg127 Q (2 ^ LOGN) LD (map Some us) ct e1 e2 e3 e4 e5 e6 e7 p = Ok p' /\
    carries (Q - LD * 7) (2 ^ LOGN) s p' (IZR (2 ^ LD)) (fun j => product_value 7 (rcoef us) (x j))
      (poly_error (2 ^ LOGN) (norm1 (2 ^ LOGN) s) (IZR (2 ^ LD)) M U err 7).
Proof. intros. apply (eval_poly_holds true LOGN LD Q s e1 [e2; e3; e4; e5; e6; e7] M U err us x ct p 6); auto; lia. Qed.

(** Chebyshev polynomials on [-1,1] *)
Lemma cheb_cos t n : cheb (real (cos t)) n = real (cos (INR n * t)) /\ cheb (real (cos t)) (S n) = real (cos (INR (S n) * t)).
Proof.
  induction n as [|n [IH1 IH2]].
  - cbn [cheb INR]. rewrite Rmult_0_l, cos_0, Rmult_1_l. split; [apply RC_eq; reflexivity|reflexivity].
  - split; [auto|]. rewrite cheb_SS, IH1, IH2. replace (INR (S (S n)) * t)%R with (INR (S n) * t + t)%R by (rewrite (S_INR (S n)); ring).
    replace (INR n * t)%R with (INR (S n) * t - t)%R by (rewrite (S_INR n); ring). rewrite cos_plus, cos_minus. apply RC_eq; cbn; ring.
Qed.
Theorem C62_real_slots : forall r n, (-1 <= r <= 1)%R -> (modulus (cheb (real r) n) <= 1)%R.
Proof.
  intros r n Hr. rewrite <- (cos_acos r Hr), (proj1 (cheb_cos (acos r) n)), modulus_real. apply Rabs_le. apply COS_bound.
Qed.

(** convert_frc_tou and eval_poly_deg31 together evaluate a Chebyshev series on slots in [-1,1]. *)
Theorem C62_chebyshev : forall LOGN LD Q s e1 e2 e3 e4 e5 U err cs r ct p u0, length cs = 32%nat -> cells 32 u0 -> (forall j, -1 <= r j <= 1)%R ->
  exists us, convert_frc_tou 5 (map Some cs) u0 0 32 = Ok (map Some us) /\
   (eval_setting true LOGN LD Q s [e1; e2; e3; e4; e5] (fun _ => 1%R) U err us (fun j => real (r j)) ct p ->
    exists p', eval_poly_deg31 Q (2 ^ LOGN) LD (map Some us) ct e1 e2 e3 e4 e5 p = Ok p' /\
    carries (Q - LD * 5) (2 ^ LOGN) s p' (IZR (2 ^ LD)) (fun j => cheb_value 5 (rcoef cs) (real (r j)))
      (poly_error (2 ^ LOGN) (norm1 (2 ^ LOGN) s) (IZR (2 ^ LD)) (fun _ => 1%R) U err 5)).
Proof.
  intros LOGN LD Q s e1 e2 e3 e4 e5 U err cs r ct p u0 Hc Hu Hr. destruct (C60_convert 5 5 cs u0 ltac:(lia) ltac:(lia) Hc Hu) as (us & E & Hl & Hv).
  exists us. split; [exact E|]. intros HS. destruct (C62_deg31 _ _ _ _ _ _ _ _ _ _ _ _ _ _ _ _ HS Hl) as (p' & E' & H'). exists p'. split; [exact E'|].
  eapply carries_ext; [|apply Rle_refl|exact H']. intros j Hj. apply Hv.
Qed.

(** A setting: N = 4, key 1-X^2, modulus 2^20, scale 2^8, slots 1/2, the coefficients 1/2, 1/4, 1/2, 1/4 *)
Definition ex_s (i : Z) : Z := if i =? 0 then 1 else if i =? 2 then -1 else 0.
Definition ex_key (Q : Z) : sq := repS (2 * Q) 4 (fun i => 2 ^ Q * negconv 4 ex_s ex_s i + 3) (fun _ => 0).
Lemma ex_key_ok Q : 1 <= Q -> switching_key Q 4 (ex_key Q) (negconv 4 ex_s ex_s) ex_s.
Proof.
  intros HQ. exists (fun _ => 3). split; [intros; lia|]. apply decrypts_rep; try lia. eexists _, _. split; [reflexivity|]. apply pcong_peq. intros i Hi. unfold padd.
  rewrite negconv_zero_r. lia.
Qed.
Example C62_case : let ct := repS 20 4 (const 128) (fun _ => 0) in
  eval_setting false 2 8 20 ex_s [ex_key 20; ex_key 12] (fun _ => 1%R) (1 / 2)%R 0%R [1 / 2; 1 / 4; 1 / 2; 1 / 4]%R (fun _ => real (1 / 2)) ct (sq_new 4 4).
Proof.
  constructor.
  - lia.
  - lia.
  - cbn. lia.
  - intros i Hi. cbn [length] in Hi. assert (i = 0 \/ i = 1) as [->| ->] by lia; unfold widths; lia.
  - intros [|[|i]] evk E; cbn in E; [injection E as <-|injection E as <-|destruct i; discriminate]; apply ex_key_ok; lia.
  - repeat constructor; try (rewrite Rabs_right by lra; lra); intros _; apply Rlt_le_trans with 0%R; try lra; apply Rmult_le_pos; try lra; apply IZR_le; lia.
  - change (2 ^ 8) with 256. split; (apply Rlt_le_trans with (IZR 1000); [lra|apply IZR_le; cbn; lia]).
  - intros b Hb j Hj. apply C62_real_slots. lra.
  - exists (const 128). split.
    + apply decrypts_rep; try lia. eexists _, _. split; [reflexivity|]. apply pcong_peq. intros i Hi. unfold padd.
      rewrite negconv_zero_r. lia.
    + intros j Hj. rewrite slots_const by lia. replace (128 / IZR (2 ^ 8))%R with (1 / 2)%R by (change (2 ^ 8) with 256; field).
      match goal with |- (modulus ?z <= _)%R => replace z with (real 0) by (apply RC_eq; cbn; ring) end. rewrite modulus_real, Rabs_R0. lra.
  - apply new_object2; lia.
Qed.
