(** The multiples of q that mod_raise adds are small for all but a few ciphertexts. *)
From Coq Require Import ZArith List Bool Lia Reals Lra.
From Verif Require Import Base BaseFacts Sums ZQ ZQFacts ZQFacts2 RQ RQFacts Conv Rot Core CoreFacts SpecZQ SpecPoly SpecPolyFacts SpecScheme PolyRing PolyCong Properties_Core Noise.
From Verif Require Import SpecTail Tail.
Import ListNotations.
Open Scope Z_scope.

Lemma rsum_const0 {A} (l : list A) : rsum (fun _ => 0%R) l = 0%R.
Proof. induction l as [|x l IH]; cbn [rsum]; [reflexivity|]. rewrite IH. lra. Qed.
Lemma filter_union {A I : Type} (p : A -> bool) (ps : I -> A -> bool) (is : list I) (l : list A) :
  (forall x, In x l -> p x = true -> exists i, In i is /\ ps i x = true) -> (INR (length (filter p l)) <= rsum (fun i => INR (length (filter (ps i) l))) is)%R.
Proof.
  intros H. induction l as [|x l IH]; [cbn [filter length INR]; rewrite rsum_const0; lra|].
  specialize (IH (fun y Hy => H y (or_intror Hy))). cbn [filter].
  assert (M : (rsum (fun i => INR (length (filter (ps i) l))) is + (if existsb (fun i => ps i x) is then 1 else 0) <= rsum (fun i => INR (length (if ps i x then x :: filter (ps i) l else filter (ps i) l))) is)%R).
  { clear. induction is as [|i is IHi]; cbn [existsb rsum]; [lra|]. destruct (ps i x); cbn [orb].
    - cbn [length]. rewrite S_INR. destruct (existsb _ is); lra.
    - lra. }
  specialize (H x (or_introl eq_refl)). destruct (p x).
  - cbn [length]. rewrite S_INR. assert (E : existsb (fun i => ps i x) is = true) by (apply existsb_exists; apply H; reflexivity). rewrite E in M. lra.
  - destruct (existsb _ is); lra.
Qed.
Lemma rsum_const {A} c (l : list A) : rsum (fun _ => c) l = (INR (length l) * c)%R.
Proof. induction l as [|x l IH]; cbn [rsum length]; [cbn; lra|]. rewrite IH, S_INR. lra. Qed.
Lemma rsum_le {A} (f g : A -> R) l : (forall x, In x l -> (f x <= g x)%R) -> (rsum f l <= rsum g l)%R.
Proof. induction l as [|x l IH]; intros H; cbn [rsum]; [lra|]. pose proof (H x (or_introl eq_refl)). specialize (IH (fun y Hy => H y (or_intror Hy))). lra. Qed.
Lemma rsum_zsum f n : rsum (fun k => IZR (f (Z.of_nat k))) (seq 0 n) = IZR (zsum (Z.of_nat n) f).
Proof.
  induction n as [|n IH]; [reflexivity|]. rewrite seq_S, rsum_app, IH. cbn [rsum]. rewrite Nat.add_0_l. replace (Z.of_nat (S n)) with (Z.of_nat n + 1) by lia. rewrite zsum_S by lia. rewrite plus_IZR. lra.
Qed.

Section Key.
Context (N : Z) (HN : 1 <= N) (s : list Z) (Hs : ternary N s).
(** the coefficient of b_k in coefficient i of s b *)
Definition kw (i k : Z) : Z := if k <=? i then coef s (i - k) else - coef s (N + i - k).
Lemma kw_sum b i : 0 <= i < N -> negconv N (coef s) b i = zsum N (fun k => b k * kw i k).
Proof. intros Hi. rewrite (negconv_comm N ltac:(lia) (coef s) b i Hi). reflexivity. Qed.
Lemma key_tern k : 0 <= k < N -> coef s k = -1 \/ coef s k = 0 \/ coef s k = 1.
Proof. intros Hk. destruct Hs as [Hl HF]. rewrite Forall_forall in HF. apply HF. unfold coef. apply nth_In. lia. Qed.
Lemma kw_tern i k : 0 <= i < N -> 0 <= k < N -> kw i k = -1 \/ kw i k = 0 \/ kw i k = 1.
Proof. intros Hi Hk. unfold kw. destruct (Z.leb_spec k i); [apply key_tern; lia|]. destruct (key_tern (N + i - k) ltac:(lia)) as [->|[->| ->]]; auto. Qed.
Lemma kw_norm i : 0 <= i < N -> zsum N (fun k => Z.abs (kw i k)) = norm1 N (coef s).
Proof.
  intros Hi. unfold norm1. rewrite (zsum_reindex N (fun k => if k <=? i then i - k else N + i - k) (fun k => Z.abs (coef s k))).
  - apply zsum_ext. intros k Hk. unfold kw. destruct (k <=? i); [reflexivity|apply Z.abs_opp].
  - intros k Hk. destruct (Z.leb_spec k i); lia.
  - intros j k Hj Hk. destruct (Z.leb_spec j i), (Z.leb_spec k i); lia.
Qed.
Lemma weight_sum (w : nat -> Z) n : (forall k, (k < n)%nat -> w k = -1 \/ w k = 0 \/ w k = 1) -> IZR (Z.of_nat (weight n w)) = rsum (fun k => IZR (Z.abs (w k))) (seq 0 n).
Proof.
  intros H. unfold weight. assert (G : forall l, (forall k, In k l -> (k < n)%nat) -> IZR (Z.of_nat (fold_right (fun k m => (if (w k =? 0)%Z then 0 else 1) + m)%nat 0%nat l)) = rsum (fun k => IZR (Z.abs (w k))) l).
  { induction l as [|k l IH]; intros Hl; cbn [fold_right rsum]; [reflexivity|]. rewrite <- IH by (intros; apply Hl; right; auto). rewrite <- plus_IZR. f_equal. rewrite Nat2Z.inj_add. f_equal.
    destruct (H k (Hl k (or_introl eq_refl))) as [->|[->| ->]]; reflexivity. }
  apply G. intros k Hk. apply in_seq in Hk. lia.
Qed.
Definition wt (sg i : Z) (k : nat) : Z := sg * kw i (Z.of_nat k).
Lemma wt_tern sg i k : sg = 1 \/ sg = -1 -> 0 <= i < N -> (k < Z.to_nat N)%nat -> wt sg i k = -1 \/ wt sg i k = 0 \/ wt sg i k = 1.
Proof. intros Hsg Hi Hk. unfold wt. destruct (kw_tern i (Z.of_nat k) Hi ltac:(lia)) as [->|[->| ->]]; destruct Hsg as [-> | ->]; cbn; auto. Qed.
Lemma wt_weight sg i : sg = 1 \/ sg = -1 -> 0 <= i < N -> weight (Z.to_nat N) (wt sg i) = Z.to_nat (norm1 N (coef s)).
Proof.
  intros Hsg Hi. apply Nat2Z.inj. apply eq_IZR. rewrite weight_sum by (intros k Hk; apply wt_tern; auto). rewrite Z2Nat.id by (apply norm1_nonneg; lia).
  rewrite <- (kw_norm i Hi). rewrite (rsum_ext _ (fun k => IZR ((fun k => Z.abs (kw i k)) (Z.of_nat k)))).
  - rewrite (rsum_zsum (fun k => Z.abs (kw i k))), Z2Nat.id by lia. reflexivity.
  - intros k _. unfold wt. destruct Hsg as [-> | ->]; f_equal; rewrite Z.abs_mul; cbn [Z.abs]; lia.
Qed.
Lemma wsum_negconv sg i a : 0 <= i < N -> wsum (Z.to_nat N) (wt sg i) a = IZR (sg * negconv N (coef s) (coef a) i).
Proof.
  intros Hi. rewrite kw_sum by auto. rewrite <- zsum_scal. unfold wsum. rewrite (rsum_ext _ (fun k => IZR ((fun k => sg * (coef a k * kw i k)) (Z.of_nat k)))).
  - rewrite (rsum_zsum (fun k => sg * (coef a k * kw i k))), Z2Nat.id by lia. reflexivity.
  - intros k _. rewrite <- mult_IZR. f_equal. unfold wt, coef. rewrite Nat2Z.id. ring.
Qed.

Context (LOGq : Z) (HLq : 1 <= LOGq) (B : Z).
Let p := 2 ^ (LOGq - 1).
Let h := Z.to_nat (norm1 N (coef s)).
Definition large (a : list Z) (i : Z) : bool := (4 * B + 1) * 2 ^ LOGq <=? 4 * Z.abs (negconv N (coef s) (coef a) i).
Definition bad_vectors : list (list Z) := filter (fun a => existsb (fun k => large a (Z.of_nat k)) (seq 0 (Z.to_nat N))) (vectors p (Z.to_nat N)).
Lemma bad_count : (INR (length bad_vectors) <= 2 * IZR N * tail_bound h p B * INR (length (vectors p (Z.to_nat N))))%R.
Proof.
  assert (Hp : 0 < p) by (apply Z.pow_pos_nonneg; lia). assert (Hq : 2 ^ LOGq = 2 * p) by (unfold p; rewrite <- Z.pow_succ_r by lia; f_equal; lia). apply IZR_lt in Hp as Hp'.
  set (T := (fun (j : Z * nat) (a : list Z) => if Rle_dec ((IZR B + / 4) * IZR (2 * p)) (wsum (Z.to_nat N) (wt (fst j) (Z.of_nat (snd j))) a) then true else false)).
  set (is := map (fun k => (1, k)) (seq 0 (Z.to_nat N)) ++ map (fun k => (-1, k)) (seq 0 (Z.to_nat N))).
  unfold bad_vectors. eapply Rle_trans; [apply (filter_union _ T is)|].
  - intros a _ H. apply existsb_exists in H. destruct H as (k & Hk & H). unfold large in H. apply Z.leb_le in H. pose proof Hk as Hk'. apply in_seq in Hk'.
    set (X := negconv N (coef s) (coef a) (Z.of_nat k)) in *. 
    assert (Hx : exists sg, (sg = 1 \/ sg = -1) /\ (4 * B + 1) * 2 ^ LOGq <= 4 * (sg * X)) by (destruct (Z.abs_spec X) as [[_ E]|[_ E]]; [exists 1|exists (-1)]; split; auto; lia).
    destruct Hx as (sg & Hsg & Hx). exists (sg, k). split; [unfold is; apply in_app_iff; destruct Hsg as [-> | ->]; [left|right]; apply in_map_iff; exists k; auto|].
    unfold T. cbn [fst snd]. rewrite wsum_negconv by lia. fold X. destruct (Rle_dec _ _) as [|C]; [reflexivity|]. exfalso. apply C. apply IZR_le in Hx. rewrite Hq in Hx. rewrite !mult_IZR, plus_IZR, mult_IZR in Hx. rewrite !mult_IZR. lra.
  - eapply Rle_trans; [apply (rsum_le _ (fun _ => (tail_bound h p B * INR (length (vectors p (Z.to_nat N))))%R))|].
    + intros [sg k] Hk. assert (Hsk : (sg = 1 \/ sg = -1) /\ 0 <= Z.of_nat k < N).
      { unfold is in Hk. apply in_app_iff in Hk. destruct Hk as [Hk|Hk]; apply in_map_iff in Hk; destruct Hk as (k' & E & Hk); inversion E; subst; apply in_seq in Hk; split; auto; lia. }
      destruct Hsk as [Hsg Hk']. unfold T. cbn [fst snd].
      pose proof (chernoff p Hp (Z.to_nat N) (wt sg (Z.of_nat k)) (fun j Hj => wt_tern sg (Z.of_nat k) j Hsg Hk' Hj) 1 (IZR B + / 4) ltac:(lra)) as C. rewrite wt_weight in C by auto. fold h in C.
      unfold tail_bound, moment in *. replace (2 * 1 * (IZR B + / 4))%R with (2 * (IZR B + / 4))%R in C by ring. replace (2 * 1)%R with 2%R in C by ring. replace (1 / IZR p)%R with (/ IZR p)%R in C by (field; lra). exact C.
    + rewrite rsum_const. unfold is. rewrite app_length, !map_length, seq_length, plus_INR, INR_IZR_INZ, Z2Nat.id by lia. apply Req_le. ring.
Qed.
Lemma good_small a : In a (vectors p (Z.to_nat N)) -> ~ In a bad_vectors -> forall i, 0 <= i < N -> 4 * Z.abs (negconv N (coef s) (coef a) i) < (4 * B + 1) * 2 ^ LOGq.
Proof.
  intros Ha Hb i Hi. destruct (Z_lt_le_dec (4 * Z.abs (negconv N (coef s) (coef a) i)) ((4 * B + 1) * 2 ^ LOGq)) as [|C]; [auto|]. exfalso. apply Hb. apply filter_In. split; [exact Ha|]. apply existsb_exists.
  exists (Z.to_nat i). split; [apply in_seq; lia|]. unfold large. rewrite Z2Nat.id by lia. apply Z.leb_le. exact C.
Qed.
Lemma good_raise a LOGQ ct D m : In a (vectors p (Z.to_nat N)) -> ~ In a bad_vectors -> 1 <= LOGQ -> object2 LOGQ N D ->
  decrypts LOGq N ct (coef s) m -> holdsP LOGq N (snd ct) (coef a) -> (forall i, 0 <= i < N -> 4 * Z.abs (m i) <= 2 ^ LOGq) ->
  exists ct' I, mod_raise LOGq LOGQ N ct D = Ok ct' /\ decrypts LOGQ N ct' (coef s) (fun i => m i + 2 ^ LOGq * I i) /\ forall i, 0 <= i < N -> Z.abs (I i) <= B.
Proof.
  intros Ha Hb HQ HD H Hsnd Hm. apply decrypts_rep in H; try lia. destruct H as (x & y & -> & H). cbn [snd repS] in Hsnd. apply holdsP_rep in Hsnd; try lia.
  pose proof (pow2_pos LOGq ltac:(lia)) as Hp. pose proof (pow2_half LOGq HLq) as Hh. apply vectors_in in Ha as Ha'; [|apply Z.pow_nonneg; lia]. destruct Ha' as [Hl HF].
  assert (Hy : forall k, 0 <= k < N -> cent LOGq (y k) = coef a k).
  { intros k Hk. assert (E : rep LOGq (y k) = rep LOGq (coef a k)).
    { unfold repP in Hsnd. assert (E : nth_error (tab N (fun i => rep LOGq (y i))) (Z.to_nat k) = nth_error (tab N (fun i => rep LOGq (coef a i))) (Z.to_nat k)) by (rewrite Hsnd; reflexivity). rewrite !nth_error_tab in E by auto. congruence. }
    apply rep_inj in E; [|auto]. rewrite <- cent_mod, E, cent_mod by auto. apply cent_small; auto. rewrite Forall_forall in HF. apply HF. unfold coef. apply nth_In. lia. }
  unfold mod_raise. rewrite sq_resize_rep by (auto; try lia; apply object2_obj; auto; lia).
  set (x' := fun i => cent LOGq (x i)). set (y' := fun i => cent LOGq (y i)).
  assert (Hc : pcong N (2 ^ LOGq) (padd x' (negconv N (coef s) y')) m).
  { rewrite <- H. assert (Hx' : pcong N (2 ^ LOGq) x' x) by (apply pcong_mod; auto; intros; apply cent_congr; auto).
    assert (Hy' : pcong N (2 ^ LOGq) y' y) by (apply pcong_mod; auto; intros; apply cent_congr; auto).
    rewrite Hx', Hy'. apply pcong_refl. }
  exists (repS LOGQ N x' y'), (fun i => (padd x' (negconv N (coef s) y') i - m i) / 2 ^ LOGq). split; [reflexivity|].
  assert (HI : forall i, 0 <= i < N -> 2 ^ LOGq * ((padd x' (negconv N (coef s) y') i - m i) / 2 ^ LOGq) = padd x' (negconv N (coef s) y') i - m i).
  { intros i Hi. destruct (Hc i Hi) as [z Hz]. rewrite Hz, Z.div_mul by lia. lia. }
  split.
  - apply decrypts_rep; try lia. exists x', y'. split; auto. apply pcong_peq. intros i Hi. rewrite HI by auto. lia.
  - intros i Hi. specialize (HI i Hi). set (I := (padd x' (negconv N (coef s) y') i - m i) / 2 ^ LOGq) in *.
    assert (B0 : Z.abs (x' i) <= 2 ^ (LOGq - 1)) by (unfold x'; pose proof (cent_bounds LOGq (x i) HLq); lia).
    assert (E : negconv N (coef s) y' i = negconv N (coef s) (coef a) i) by (apply (negconv_peq N); try lia; intros k Hk; [reflexivity|apply Hy; auto]).
    pose proof (good_small a Ha Hb i Hi) as B1. unfold padd in HI. rewrite E in HI. specialize (Hm i Hi).
    assert (HB : 4 * (2 ^ LOGq * Z.abs I) < 4 * (2 ^ LOGq * (B + 1))).
    { replace (2 ^ LOGq * Z.abs I) with (Z.abs (2 ^ LOGq * I)) by (rewrite Z.abs_mul; lia). rewrite HI. lia. }
    nia.
Qed.
End Key.
