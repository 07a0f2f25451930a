(** Slots of the results of linear transforms. *)
From Coq Require Import ZArith List Bool Lia Reals Lra Ring Znumtheory.
From Verif Require Import Base BaseFacts Sums ZQ ZQFacts ZQFacts2 ZQFacts3 RQ RQFacts Conv ConvFacts Rot RotFacts Core CoreFacts Util UtilFacts GSum Matrix MatrixFacts MatMulFacts
  DFT DFTTheory DFTFacts FFTFacts PolyRing Noise SpecZQ SpecPoly SpecPolyFacts SpecScheme SpecMat Properties_Mat SpecDFT Properties_DFT SpecEnc SlotFacts
  Encode EncodeFacts Properties_Conv Properties_Core Properties_Rot Properties_Enc Properties_Plain SpecLin LinTrans LinTransFacts.
Import ListNotations.
Open Scope Z_scope.
Add Ring RCls : HR.

(** ** Coefficients are bounded by slots *)
Lemma rsum_nonneg k (f : Z -> R) : 0 <= k -> (forall t, 0 <= t < k -> (0 <= f t)%R) -> (0 <= gsum (K := Rops) k f)%R.
Proof.
  intros Hk H. apply (GSum.gsum_ind k (fun k => (0 <= gsum (K := Rops) k f)%R)); [rewrite gsum_0 by lia; apply Rle_refl| |lia].
  intros m Hm IH. rewrite gsum_S by lia. pose proof (H m Hm). cbn in *. lra.
Qed.
Lemma rsum_le k (f g : Z -> R) : 0 <= k -> (forall t, 0 <= t < k -> (f t <= g t)%R) -> (gsum (K := Rops) k f <= gsum (K := Rops) k g)%R.
Proof.
  intros Hk H. apply (GSum.gsum_ind k (fun k => (gsum (K := Rops) k f <= gsum (K := Rops) k g)%R)); [rewrite !gsum_0 by lia; apply Rle_refl| |lia].
  intros m Hm IH. rewrite !gsum_S by lia. pose proof (H m Hm). cbn in *. lra.
Qed.
Lemma rsum_lin k (f : Z -> R) x c : 0 <= k -> gsum (K := Rops) k (fun t => x * f t + c)%R = (x * gsum (K := Rops) k f + IZR k * c)%R.
Proof.
  intros Hk. apply (GSum.gsum_ind k (fun k => gsum (K := Rops) k (fun t => x * f t + c)%R = (x * gsum (K := Rops) k f + IZR k * c)%R)); [rewrite !gsum_0 by lia; cbn; ring| |lia].
  intros m Hm IH. rewrite !gsum_S by lia. rewrite IH, plus_IZR. cbn. ring.
Qed.
Lemma finite_choice {T} (P : Z -> T -> Prop) (d : T) k : 0 <= k -> (forall t, 0 <= t < k -> exists x, P t x) -> exists f, forall t, 0 <= t < k -> P t (f t).
Proof.
  intros Hk. apply (GSum.gsum_ind k (fun k => (forall t, 0 <= t < k -> exists x, P t x) -> exists f, forall t, 0 <= t < k -> P t (f t))); [| |lia].
  - intros _. exists (fun _ => d). intros; lia.
  - intros m Hm IH H. destruct IH as [f Hf]; [intros; apply H; lia|]. destruct (H m ltac:(lia)) as [x Hx].
    exists (fun t => if t =? m then x else f t). intros t Ht. destruct (Z.eqb_spec t m) as [->|]; auto. apply Hf. lia.
Qed.
Lemma modulus_cre (z : CC) : (Rabs (cre Rops z) <= modulus z)%R.
Proof.
  rewrite <- sqrt_Rsqr_abs. unfold modulus. apply sqrt_le_1_alt. unfold Rsqr. nra.
Qed.
Lemma modulus_cim (z : CC) : (Rabs (cim Rops z) <= modulus z)%R.
Proof.
  rewrite <- sqrt_Rsqr_abs. unfold modulus. apply sqrt_le_1_alt. unfold Rsqr. nra.
Qed.
Lemma modulus_0 : modulus (0%num : RC) = 0%R.
Proof. unfold modulus, cre, cim. cbn. rewrite Rmult_0_l, Rplus_0_l. apply sqrt_0. Qed.
Lemma modulus_conj (z : RC) : modulus (cconj Rops z) = modulus z.
Proof. destruct z. unfold modulus, cconj, cre, cim, mk. cbn. f_equal. ring. Qed.
Lemma modulus_sub (x y : CC) : (modulus (x - y)%num <= modulus x + modulus y)%R.
Proof. replace (x - y)%num with (x + - y)%num by ring. rewrite <- (modulus_opp y). apply modulus_add. Qed.
Lemma modulus_near (x y : CC) : (modulus x <= modulus y + modulus (x - y)%num)%R.
Proof. replace x with (y + (x - y))%num at 1 by ring. apply modulus_add. Qed.

Lemma coef_slots LOGN m b : 2 <= LOGN <= 27 -> (forall j, 0 <= j < 2 ^ (LOGN - 1) -> (modulus (slot (2 ^ LOGN) m j) <= b)%R) ->
  forall i, 0 <= i < 2 ^ LOGN -> (Rabs (m i) <= b)%R.
Proof.
  intros HL H i Hi. pose proof (n_pos LOGN HL) as Hn. set (n := 2 ^ (LOGN - 1)) in *.
  assert (G : forall k, 0 <= k < n -> (modulus (mk Rops (IZR n * fst (fold_c LOGN m k))%R (IZR n * snd (fold_c LOGN m k))%R) <= IZR n * b)%R).
  { intros k Hk. pose proof (inv1 LOGN HL (fold_c LOGN m) k Hk) as I1. fold n in I1. unfold RC in *. rewrite <- I1. apply (modulus_sum n); [lia|]. intros j Hj.
    pose proof (fold_slot LOGN HL m j ltac:(lia)) as E. fold n in E.
    rewrite modulus_mul, modulus_conj, modulus_eN, Rmult_1_l. eapply Rle_trans; [|apply (H j Hj)]. apply Req_le, f_equal. symmetry. exact E. }
  assert (HR : (0 < IZR n)%R) by (apply IZR_lt; lia).
  assert (F : forall x, (Rabs (IZR n * x) <= IZR n * b -> Rabs x <= b)%R).
  { intros x Hx. rewrite Rabs_mult, (Rabs_right (IZR n)) in Hx by lra. apply Rmult_le_reg_l with (IZR n); auto. }
  assert (HN : 2 ^ LOGN = 2 * n) by (apply N2; auto).
  destruct (Z.lt_ge_cases i n).
  - apply F. eapply Rle_trans; [|apply (G i); lia]. match goal with |- (_ <= modulus ?z)%R => apply (modulus_cre z) end.
  - apply F. assert (Em : m i = snd (fold_c LOGN m (i - n))) by (unfold fold_c, mk; cbn [snd]; fold n; f_equal; lia). rewrite Em.
    eapply Rle_trans; [|apply (G (i - n)); lia]. match goal with |- (_ <= modulus ?z)%R => apply (modulus_cim z) end.
Qed.
Lemma below_max (f : Z -> R) b n : 0 < n -> (forall j, 0 <= j < n -> (f j < b)%R) -> exists b', (b' < b)%R /\ forall j, 0 <= j < n -> (f j <= b')%R.
Proof.
  intros Hn H. assert (G : exists b', (b' < b)%R /\ forall j, 0 <= j < n -> (f j <= b')%R); [|exact G].
  revert H. apply (GSum.gsum_ind n (fun n => (forall j, 0 <= j < n -> (f j < b)%R) -> exists b', (b' < b)%R /\ forall j, 0 <= j < n -> (f j <= b')%R)); [| |lia].
  - intros _. exists (b - 1)%R. split; [lra|intros; lia].
  - intros k Hk IH H. destruct IH as (b1 & H1 & H2); [intros; apply H; lia|]. exists (Rmax b1 (f k)). split; [apply Rmax_lub_lt; auto; apply H; lia|].
    intros j Hj. destruct (Z.eq_dec j k) as [->|]; [apply Rmax_r|]. eapply Rle_trans; [apply H2; lia|apply Rmax_l].
Qed.
Lemma coef_slots_lt LOGN m b : 2 <= LOGN <= 27 -> (forall j, 0 <= j < 2 ^ (LOGN - 1) -> (modulus (slot (2 ^ LOGN) m j) < b)%R) ->
  forall i, 0 <= i < 2 ^ LOGN -> (Rabs (m i) < b)%R.
Proof.
  intros HL H i Hi. destruct (below_max (fun j => modulus (slot (2 ^ LOGN) m j)) b (2 ^ (LOGN - 1)) ltac:(apply Z.pow_pos_nonneg; lia) H) as (b' & H1 & H2).
  eapply Rle_lt_trans; [|exact H1]. apply (coef_slots LOGN m b' HL H2 i Hi).
Qed.
(** Integer polynomials with small slots *)
Lemma coef_slots_Z LOGN (c : Z -> Z) D b : 2 <= LOGN <= 27 -> (0 < D)%R -> (forall j, 0 <= j < 2 ^ (LOGN - 1) -> (modulus (slots (2 ^ LOGN) D c j) <= b)%R) ->
  forall i, 0 <= i < 2 ^ LOGN -> (Rabs (IZR (c i)) <= D * b)%R.
Proof.
  intros HL HD H i Hi. pose proof (coef_slots LOGN (fun i => IZR (c i) / D)%R b HL H i Hi) as T. cbv beta in T.
  unfold Rdiv in T. rewrite Rabs_mult, (Rabs_right (/ D)) in T by (apply Rle_ge, Rlt_le, Rinv_0_lt_compat; auto).
  apply Rmult_le_compat_l with (r := D) in T; [|lra]. replace (D * (Rabs (IZR (c i)) * / D))%R with (Rabs (IZR (c i))) in T by (field; lra). exact T.
Qed.
Lemma signed_slots LOGQ LOGN (c : Z -> Z) D b : 2 <= LOGN <= 27 -> 1 <= LOGQ -> (0 < D)%R -> (forall j, 0 <= j < 2 ^ (LOGN - 1) -> (modulus (slots (2 ^ LOGN) D c j) <= b)%R) ->
  (D * b < IZR (2 ^ (LOGQ - 1)))%R -> forall i, 0 <= i < 2 ^ LOGN -> - 2 ^ (LOGQ - 1) <= c i < 2 ^ (LOGQ - 1).
Proof.
  intros HL HQ HD H Hb i Hi. pose proof (coef_slots_Z LOGN c D b HL HD H i Hi) as T. rewrite <- abs_IZR in T.
  assert (Z.abs (c i) < 2 ^ (LOGQ - 1)) by (apply lt_IZR; lra). lia.
Qed.

Section LT.
Context (LOGQ LOGN LOGDELTA RM : Z) (rnd : nat -> Z) (s : list Z).
Context (HQ : widths LOGQ) (HQ2 : widths (2 * LOGQ)) (HL : 2 <= LOGN <= 17) (HD : 0 <= LOGDELTA < 64) (Hr : rand_stream RM rnd).
Let N := 2 ^ LOGN.
Let n := 2 ^ (LOGN - 1).
Context (Hs : ternary N s).
Let Delta := 2 ^ LOGDELTA.
Let E := noise N (coef s).

Section One.
Context (S : Z) (A : Z -> Z -> CC) (o : Z -> Z) (zr zi : Z -> bool).
Let Ar := diagonals n S (fun t j => cre Rops (A t j)) o zr.
Let Ai := diagonals n S (fun t j => cim Rops (A t j)) o zi.
Let skip t := zr t && zi t.
Context (HS : 0 <= S).
Context (Ho : forall t, 0 <= t < S -> skip t = false -> 0 <= o t).
Context (Hb : forall t j, 0 <= t < S -> skip t = false -> 0 <= j < n -> entry_small LOGQ LOGDELTA (A t j)).


Lemma entries : exists mc : Z -> Z -> R, (forall t j, 0 <= t < S -> 0 <= j < n -> slot N (mc t) j = A t j) /\
  forall t i, 0 <= t < S -> skip t = false -> 0 <= i < N -> (Rabs (mc t i) * IZR Delta < IZR (2 ^ 64) - / 2)%R /\ (Rabs (mc t i) * IZR Delta < IZR (2 ^ LOGQ) - / 2)%R.
Proof.
  destruct (finite_choice (fun t m => forall j, 0 <= j < n -> slot N m j = A t j) (fun _ => 0%R) S HS) as [mc Hmc].
  { intros t Ht. apply (some_m LOGN); lia. }
  exists mc. split; [auto|]. intros t i Ht Hk Hi. pose proof (pow2_word LOGDELTA HD) as HDp. fold Delta in HDp.
  assert (HDr : (0 < IZR Delta)%R) by (apply IZR_lt; lia).
  assert (G : forall b, (forall j, 0 <= j < n -> (modulus (A t j) * IZR Delta < b)%R) -> (Rabs (mc t i) * IZR Delta < b)%R).
  { intros b H. apply Rmult_lt_reg_r with (/ IZR Delta)%R; [apply Rinv_0_lt_compat; auto|]. rewrite Rmult_assoc, Rinv_r, Rmult_1_r by lra.
    apply (coef_slots_lt LOGN (mc t) (b * / IZR Delta)%R ltac:(lia)); auto. intros j Hj. fold N. rewrite Hmc by auto.
    apply Rmult_lt_reg_r with (IZR Delta); auto. rewrite Rmult_assoc, Rinv_l, Rmult_1_r by lra. auto. }
  split; apply G; intros j Hj; apply (Hb t j Ht Hk Hj).
Qed.

(** What one linear transform does to slots. *)
Lemma lt_slots ct m st pos Act : ifft_static LOGN st -> decrypts LOGQ N ct (coef s) m -> object2 LOGQ N Act ->
  exists st' pos' Act' w, linear_transform LOGQ LOGN LOGDELTA RM rnd S st pos Ar Ai ct (map Some s) Act = Ok (st', pos', Act') /\ ifft_static LOGN st' /\
    decrypts LOGQ N Act' (coef s) w /\
    forall D0 j, (0 < D0)%R -> 0 <= j < n ->
      (modulus (slots N (IZR Delta * D0) w j - apply n (matrix_of n S (live zr zi A) o) (slots N D0 m) j)%num <= lt_error N n Delta E S A o zr zi (slots N D0 m) D0 j)%R.
Proof.
  intros Hst Hct Hact. destruct entries as (mc & Hmc & Hmb). assert (HQ1 : 1 <= LOGQ) by (unfold widths in HQ; lia).
  pose proof (Npos LOGN ltac:(lia)) as HN. fold N in HN. assert (Hn : 0 < n) by (apply Z.pow_pos_nonneg; lia). assert (HL' : 2 <= LOGN <= 27) by lia.
  destruct (lt_loop LOGQ LOGN LOGDELTA RM rnd s HQ HQ2 HL HD Hr Hs S A o zr zi mc HS Ho (fun t j H _ => Hmc t j H) Hmb ct m st pos Act Hst Hct Hact)
    as (st' & pos' & Act' & mr & e & E1 & Hst' & Hmr & Hd). fold N n in E1, Hmr, Hd.
  eexists st', pos', Act', _. split; [exact E1|]. split; [exact Hst'|]. split; [exact Hd|].
  intros D0 j HD0 Hj. pose proof (pow2_word LOGDELTA HD) as HDp. fold Delta in HDp.
  assert (HDr : (0 < IZR Delta)%R) by (apply IZR_lt; lia).
  rewrite (apply_offsets LOGQ LOGN HL S (live zr zi A) o _ j Hj). fold n.
  pose (c t := zs (cof LOGDELTA mc t)).
  match goal with |- context [slots N _ ?w j] => set (ww := w) end.
  assert (EW : slot N (zs ww) j = gsum S (fun t => if skip t then 0%num else ((slot N (zs m) ((j + o t) mod n) + slot N (zs (e t)) j) * slot N (c t) j)%num)).
  { assert (G : forall k, 0 <= k <= S -> slot N (zs (fun i => zsum k (fun t => if skip t then 0 else negconv N (fun i => mr t i + e t i) (cof LOGDELTA mc t) i))) j
       = gsum k (fun t => if skip t then 0%num else ((slot N (zs m) ((j + o t) mod n) + slot N (zs (e t)) j) * slot N (c t) j)%num)); [|apply (G S); lia].
    intros k Hk. assert (Hk0 : 0 <= k) by lia. revert Hk. apply (GSum.gsum_ind k (fun k => 0 <= k <= S -> slot N (zs (fun i => zsum k (fun t => if skip t then 0 else negconv N (fun i => mr t i + e t i) (cof LOGDELTA mc t) i))) j
       = gsum k (fun t => if skip t then 0%num else ((slot N (zs m) ((j + o t) mod n) + slot N (zs (e t)) j) * slot N (c t) j)%num))); [| |exact Hk0].
    - intros _. rewrite gsum_0 by lia. rewrite slot_at by auto. unfold at_. apply (gsum_zero HC). intros i Hi. unfold zs. rewrite zsum_nil by lia. apply RC_eq; cbn; ring.
    - intros t Ht IH Hk. rewrite gsum_S by lia. rewrite <- IH by lia.
      rewrite (slot_ext N _ (fun i => zs (fun i => zsum t (fun t => if skip t then 0 else negconv N (fun i => mr t i + e t i) (cof LOGDELTA mc t) i)%Z) i
         + zs (fun i => if skip t then 0 else negconv N (fun i => mr t i + e t i) (cof LOGDELTA mc t) i)%Z i)%R).
      2:{ intros i Hi. unfold zs. rewrite zsum_S by lia. apply plus_IZR. }
      rewrite slot_add. f_equal. destruct (skip t) eqn:Hk'.
      + rewrite slot_at by auto. unfold at_. apply (gsum_zero HC). intros i Hi. unfold zs. apply RC_eq; cbn; ring.
      + rewrite (slot_ext N _ (rnegconv N (fun i => zs (mr t) i + zs (e t) i)%R (c t))).
        2:{ intros i Hi. unfold zs at 1. rewrite (real_negconv LOGN). fold N. unfold rnegconv. apply (gsum_ext (K := Rops)). intros k2 Hk2. unfold zs, c. rewrite plus_IZR. reflexivity. }
        rewrite slot_negconv, slot_add by lia. f_equal. f_equal.
        apply (slot_rot LOGN HL' (zs m) (zs (mr t)) j (o t)); [lia|apply Ho; auto; lia|]. apply (real_sub LOGN). apply Hmr; auto. lia. }
  unfold slots. change (fun i => (IZR (ww i) / (IZR Delta * D0))%R) with (fun i => (zs ww i / (IZR Delta * D0))%R).
  rewrite (slots_zs LOGN) by (apply Rgt_not_eq; nra). fold N. rewrite EW. rewrite <- (gsum_scale HC), <- (gsum_sub HC).
  unfold lt_error. apply modulus_rsum; auto. intros t Ht. unfold live. change (zr t && zi t) with (skip t). destruct (skip t) eqn:Hk.
  { match goal with |- (modulus ?x <= _)%R => replace x with (0%num : RC) by ring end. rewrite modulus_0. lra. }
  change (fun i => (IZR (m i) / D0)%R) with (fun i => (zs m i / D0)%R).
  set (zt := slot N (fun i => zs m i / D0)%R ((j + o t) mod n)).
  set (et := slot N (fun i => zs (e t) i / D0)%R j). set (pt := slot N (fun i => c t i / IZR Delta)%R j).
  match goal with |- (modulus ?x <= _)%R => replace x with ((pt - A t j) * zt + pt * et)%num end.
  2:{ unfold pt, zt, et, c. rewrite !(slots_zs LOGN) by (apply Rgt_not_eq; auto). fold N. rewrite Rinv_mult.
    replace (real (/ IZR Delta * / D0)%R) with (real (/ IZR Delta) * real (/ D0))%num by (apply RC_eq; cbn; ring). ring. }
  assert (Hp : (modulus (pt - A t j)%num <= IZR N / (2 * IZR Delta))%R).
  { unfold pt, c. apply (rounded_error LOGQ LOGN HL S Delta HDp A mc); auto. }
  assert (Hp2 : (modulus pt <= modulus (A t j) + IZR N / (2 * IZR Delta))%R) by (eapply Rle_trans; [apply (modulus_near pt (A t j))|lra]).
  assert (He : (modulus et <= if o t =? 0 then 0 else IZR N * IZR E / (2 * D0))%R).
  { destruct (Hmr t Ht Hk) as [_ He]. unfold et. destruct (o t =? 0).
    - rewrite slot_at by auto. unfold at_. rewrite (gsum_zero HC); [rewrite modulus_0; lra|]. intros i Hi. specialize (He i Hi). unfold zs.
      replace (e t i) with 0 by lia. apply RC_eq; cbn; unfold Rdiv; ring.
    - replace (IZR N * IZR E / (2 * D0))%R with (IZR N * (IZR E / (2 * D0)))%R by (unfold Rdiv; ring). apply modulus_slot; auto.
      intros i Hi. specialize (He i Hi). apply IZR_le in He. rewrite mult_IZR, abs_IZR in He. change (16 * N + 1 + norm1 N (coef s)) with E in He. unfold zs, Rdiv.
      rewrite Rabs_mult, (Rabs_right (/ D0)) by (apply Rle_ge, Rlt_le, Rinv_0_lt_compat; auto). rewrite Rinv_mult.
      assert (0 < / D0)%R by (apply Rinv_0_lt_compat; auto). nra. }
  eapply Rle_trans; [apply modulus_add|]. rewrite !modulus_mul. apply Rplus_le_compat.
  - apply Rmult_le_compat_r; auto. apply modulus_nonneg.
  - apply Rmult_le_compat; auto using modulus_nonneg.
Qed.
End One.

(** Several transforms, one after the other. *)
Section Serial.
Context (S : Z) (A : Z -> Z -> Z -> CC) (o : Z -> Z -> Z) (zr zi : Z -> Z -> bool) (D : nat).
Let Ar := map (fun d => diagonals n S (fun t j => cre Rops (A d t j)) (o d) (zr d)) (range (Z.of_nat D)).
Let Ai := map (fun d => diagonals n S (fun t j => cim Rops (A d t j)) (o d) (zi d)) (range (Z.of_nat D)).
Let skip d t := zr d t && zi d t.
Context (HS : 0 <= S).
Context (Ho : forall d t, 0 <= d < Z.of_nat D -> 0 <= t < S -> skip d t = false -> 0 <= o d t).
Context (Hb : forall d t j, 0 <= d < Z.of_nat D -> 0 <= t < S -> skip d t = false -> 0 <= j < n -> entry_small LOGQ LOGDELTA (A d t j)).
Context (a : nat -> R) (z0 D0 : R) (HD0 : (0 < D0)%R).
Context (Ha : forall d j, (d < D)%nat -> 0 <= j < n -> (gsum (K := Rops) S (fun t => modulus (live (zr (Z.of_nat d)) (zi (Z.of_nat d)) (A (Z.of_nat d)) t j)) <= a d)%R).
Let M d := matrix_of n S (live (zr (Z.of_nat d)) (zi (Z.of_nat d)) (A (Z.of_nat d))) (o (Z.of_nat d)).
Let dl := (IZR S * (IZR N / (2 * IZR Delta)))%R.
Let kp d := (IZR N * IZR E / (2 * (IZR Delta ^ d * D0)))%R.

Lemma chain_step d (x y : Z -> CC) b : (d < D)%nat -> (0 <= b)%R -> (forall j, 0 <= j < n -> (modulus (x j - y j)%num <= b)%R) ->
  forall j, 0 <= j < n -> (modulus (apply n (M d) x j - apply n (M d) y j)%num <= a d * b)%R.
Proof.
  intros Hd Hb0 H j Hj. assert (Hn : 0 < n) by (apply Z.pow_pos_nonneg; lia). unfold M. rewrite !(apply_offsets LOGQ LOGN HL S _ _ _ j Hj). fold n. rewrite <- (gsum_sub HC).
  eapply Rle_trans; [apply (modulus_rsum S _ (fun t => b * modulus (live (zr (Z.of_nat d)) (zi (Z.of_nat d)) (A (Z.of_nat d)) t j) + 0)%R); auto|].
  - intros t Ht. match goal with |- (modulus ?u <= _)%R => replace u with (live (zr (Z.of_nat d)) (zi (Z.of_nat d)) (A (Z.of_nat d)) t j * (x ((j + o (Z.of_nat d) t) mod n)%Z - y ((j + o (Z.of_nat d) t) mod n)%Z))%num by ring end.
    rewrite modulus_mul, Rplus_0_r, Rmult_comm. apply Rmult_le_compat_r; [apply modulus_nonneg|]. apply H. apply Z.mod_pos_bound. auto.
  - rewrite rsum_lin by auto. pose proof (Ha d j Hd Hj). rewrite Rmult_0_r, Rplus_0_r, Rmult_comm. apply Rmult_le_compat_r; auto.
Qed.
Lemma size_step d (x : Z -> CC) b : (d < D)%nat -> (0 <= b)%R -> (forall j, 0 <= j < n -> (modulus (x j) <= b)%R) ->
  forall j, 0 <= j < n -> (modulus (apply n (M d) x j) <= a d * b)%R.
Proof.
  intros Hd Hb0 H j Hj. pose proof (chain_step d x (fun _ => 0%num) b Hd Hb0) as T.
  assert (T2 : forall j : Z, 0 <= j < n -> (modulus (x j - 0)%num <= b)%R).
  { intros k Hk. replace (x k - 0)%num with (x k) by ring. auto. }
  specialize (T T2 j Hj). replace (apply n (M d) (fun _ => 0%num) j) with (0%num : RC) in T.
  - replace (apply n (M d) x j - 0)%num with (apply n (M d) x j) in T by ring. exact T.
  - symmetry. unfold apply. apply (gsum_zero HC). intros. ring.
Qed.
Lemma error_step d (x : Z -> CC) b j : (d < D)%nat -> (0 <= b)%R -> (forall j, 0 <= j < n -> (modulus (x j) <= b)%R) -> 0 <= j < n ->
  (lt_error N n Delta E S (A (Z.of_nat d)) (o (Z.of_nat d)) (zr (Z.of_nat d)) (zi (Z.of_nat d)) x (IZR Delta ^ d * D0) j <= dl * b + (a d + dl) * kp d)%R.
Proof.
  intros Hd Hb0 H Hj. assert (Hn : 0 < n) by (apply Z.pow_pos_nonneg; lia). pose proof (pow2_word LOGDELTA HD) as HDp. fold Delta in HDp.
  assert (HDr : (0 < IZR Delta)%R) by (apply IZR_lt; lia). pose proof (Npos LOGN ltac:(lia)) as HN. fold N in HN.
  assert (HE : 0 <= E). { unfold E, noise. pose proof (norm1_nonneg N (coef s)). lia. }
  assert (Hk : (0 <= kp d)%R).
  { unfold kp. apply Rmult_le_pos; [apply Rmult_le_pos; apply IZR_le; lia|]. apply Rlt_le, Rinv_0_lt_compat. assert (0 < IZR Delta ^ d)%R by (apply pow_lt; auto). nra. }
  set (h := (IZR N / (2 * IZR Delta))%R) in *. assert (Hh : (0 <= h)%R) by (unfold h; apply Rmult_le_pos; [apply IZR_le; lia|]; apply Rlt_le, Rinv_0_lt_compat; lra).
  eapply Rle_trans; [apply (rsum_le S _ (fun t => kp d * modulus (live (zr (Z.of_nat d)) (zi (Z.of_nat d)) (A (Z.of_nat d)) t j) + (h * b + h * kp d))%R); auto|].
  - intros t Ht. unfold live. destruct (zr (Z.of_nat d) t && zi (Z.of_nat d) t).
    + rewrite modulus_0. assert (0 <= h * b)%R by (apply Rmult_le_pos; auto). assert (0 <= h * kp d)%R by (apply Rmult_le_pos; auto). lra.
    + fold h. pose proof (H ((j + o (Z.of_nat d) t) mod n)%Z (Z.mod_pos_bound _ _ Hn)) as Hx. pose proof (modulus_nonneg (A (Z.of_nat d) t j)).
      assert (h * modulus (x ((j + o (Z.of_nat d) t) mod n)%Z) <= h * b)%R by (apply Rmult_le_compat_l; auto).
      assert ((modulus (A (Z.of_nat d) t j) + h) * (if o (Z.of_nat d) t =? 0 then 0 else IZR N * IZR E / (2 * (IZR Delta ^ d * D0))) <= (modulus (A (Z.of_nat d) t j) + h) * kp d)%R.
      { apply Rmult_le_compat_l; [lra|]. unfold kp in *. destruct (o (Z.of_nat d) t =? 0); [auto|apply Rle_refl]. }
      lra.
  - rewrite rsum_lin by auto. unfold dl. fold h. pose proof (Ha d j Hd Hj). assert (kp d * gsum (K := Rops) S (fun t => modulus (live (zr (Z.of_nat d)) (zi (Z.of_nat d)) (A (Z.of_nat d)) t j)) <= kp d * a d)%R by (apply Rmult_le_compat_l; auto).
    lra.
Qed.

Lemma serial_slots ct m st pos Act : ifft_static LOGN st -> decrypts LOGQ N ct (coef s) m -> object2 LOGQ N Act ->
  (forall j, 0 <= j < n -> (modulus (slots N D0 m j) <= z0)%R) ->
  exists st' pos' Act' w, serial_lt LOGQ LOGN LOGDELTA RM rnd S (Z.of_nat D) st pos Ar Ai ct (map Some s) Act = Ok (st', pos', Act') /\ ifft_static LOGN st' /\
    decrypts LOGQ N Act' (coef s) w /\
    forall j, 0 <= j < n -> (modulus (slots N (IZR Delta ^ D * D0) w j) <= size_after a dl z0 kp D)%R /\
      (modulus (slots N (IZR Delta ^ D * D0) w j - chain n M D (slots N D0 m) j)%num <= error_after a dl z0 kp D)%R.
Proof.
  intros Hst Hct Hact Hz. assert (HQ1 : 1 <= LOGQ) by (unfold widths in HQ; lia). pose proof (Npos LOGN ltac:(lia)) as HN. fold N in HN.
  assert (Hn : 0 < n) by (apply Z.pow_pos_nonneg; lia). pose proof (pow2_word LOGDELTA HD) as HDp. fold Delta in HDp.
  assert (HDr : (0 < IZR Delta)%R) by (apply IZR_lt; lia).
  unfold serial_lt. fold N. rewrite (copy_decrypts LOGQ N Act ct (coef s) m) by (auto; lia). cbn [bind].
  match goal with |- context [for_ 0 (Z.of_nat D) ?body ?s0] =>
    destruct (for_inv body (fun k (v : tables * nat * sq * sq) => let '(st, pos, Act, tmp) := v in ifft_static LOGN st /\ object2 LOGQ N tmp /\ exists w,
      decrypts LOGQ N Act (coef s) w /\ forall j, 0 <= j < n -> (modulus (slots N (IZR Delta ^ Z.to_nat k * D0) w j) <= size_after a dl z0 kp (Z.to_nat k))%R /\
      (modulus (slots N (IZR Delta ^ Z.to_nat k * D0) w j - chain n M (Z.to_nat k) (slots N D0 m) j)%num <= error_after a dl z0 kp (Z.to_nat k))%R)
      0 (Z.of_nat D) s0 ltac:(lia)) as (v & Ev & Hv) end.
  - split; [auto|]. split; [apply new_object2; lia|]. exists m. split; [auto|]. intros j Hj. cbn [Z.to_nat]. cbn [pow chain size_after error_after]. rewrite Rmult_1_l.
    split; [auto|]. match goal with |- (modulus ?x <= _)%R => replace x with (0%num : RC) by ring end. rewrite modulus_0. apply Rle_refl.
  - intros d [[[st1 pos1] Act1] tmp] Hd (H1 & H2 & w & H3 & H4). rewrite (copy_decrypts LOGQ N tmp Act1 (coef s) w) by (auto; lia). cbn [bind].
    unfold Ar, Ai. rewrite !map_range. rewrite !lget_tab by auto. cbn [bind].
    destruct (lt_slots S (A d) (o d) (zr d) (zi d) HS (fun t => Ho d t Hd) (fun t j => Hb d t j Hd) Act1 w st1 pos1 Act1 H1 H3) as (st2 & pos2 & Act2 & w2 & E2 & H5 & H6 & H7).
    { eapply decrypts_object; eauto; lia. }
    rewrite E2. cbn [bind]. eexists. split; [reflexivity|]. split; [auto|]. split; [eapply decrypts_object; eauto; lia|]. exists w2. split; [auto|].
    replace (Z.to_nat (d + 1)) with (Datatypes.S (Z.to_nat d)) by lia. set (k := Z.to_nat d) in *. assert (Ek : d = Z.of_nat k) by (unfold k; lia). rewrite Ek in *. clearbody k.
    cbn [pow chain size_after error_after]. assert (Hp : (0 < IZR Delta ^ k * D0)%R) by (apply Rmult_lt_0_compat; auto; apply pow_lt; auto).
    assert (Hs0 : (0 <= size_after a dl z0 kp k)%R) by (eapply Rle_trans; [apply modulus_nonneg|apply (H4 0); lia]).
    assert (He0 : (0 <= error_after a dl z0 kp k)%R) by (eapply Rle_trans; [apply modulus_nonneg|apply (H4 0); lia]).
    rewrite Rmult_assoc. intros j Hj. specialize (H7 _ j Hp Hj).
    pose proof (error_step k _ _ j ltac:(lia) Hs0 (fun j Hj => proj1 (H4 j Hj)) Hj) as H8.
    pose proof (size_step k _ _ ltac:(lia) Hs0 (fun j Hj => proj1 (H4 j Hj)) j Hj) as H9.
    pose proof (chain_step k _ _ _ ltac:(lia) He0 (fun j Hj => proj2 (H4 j Hj)) j Hj) as H10. split.
    + eapply Rle_trans; [apply modulus_near with (y := apply n (M k) (slots N (IZR Delta ^ k * D0) w) j)|]. unfold M in *. lra.
    + match goal with |- (modulus (?x - ?y)%num <= _)%R =>
        replace (x - y)%num with ((x - apply n (M k) (slots N (IZR Delta ^ k * D0) w) j) + (apply n (M k) (slots N (IZR Delta ^ k * D0) w) j - y))%num by ring end.
      eapply Rle_trans; [apply modulus_add|]. unfold M in *. lra.
  - match goal with |- context [bind ?x _] => replace x with (Ok v) by (symmetry; exact Ev) end. destruct v as [[[st1 pos1] Act1] tmp]. destruct Hv as (H1 & _ & w & H3 & H4).
    cbn [bind]. exists st1, pos1, Act1, w. rewrite Nat2Z.id in H4. auto.
Qed.
End Serial.
End LT.
