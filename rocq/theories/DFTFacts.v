(** The model of DFT.h computes the stages of DFTTheory.v. *)
From Coq Require Import ZArith List Bool Lia Reals Lra Ring.
From Verif Require Import Base BaseFacts Util UtilFacts GSum Matrix MatrixFacts MatMulFacts DFT DFTTheory.
Import ListNotations.
Open Scope Z_scope.

Lemma Rlawful : lawful Rops.
Proof. exact RTheory. Qed.
Notation RC := (Cops Rops).
Definition eN (N k : Z) : RC := mk Rops (cosN N k) (sinN N k).

Lemma eN_0 N : eN N 0 = 1%num.
Proof. unfold eN, cosN, sinN. rewrite Rmult_0_r, cos_0, sin_0. reflexivity. Qed.
Lemma eN_add N a b : eN N (a + b) = (eN N a * eN N b)%num.
Proof.
  unfold eN, cosN, sinN. rewrite plus_IZR, Rmult_plus_distr_l, cos_plus, sin_plus. apply c_eq; unfold cre, cim; cbn; ring.
Qed.
Lemma eN_N N : 0 < N -> eN N N = (- (1))%num.
Proof.
  intros H. unfold eN, cosN, sinN. replace (PI / IZR N * IZR N)%R with PI.
  - rewrite cos_PI, sin_PI. apply c_eq; unfold cre, cim; cbn; ring.
  - field. apply not_0_IZR. lia.
Qed.
Lemma eN_half n : 0 < n -> eN (2 * n) n = (ci Rops : RC).
Proof.
  intros H. unfold eN, cosN, sinN. replace (PI / IZR (2 * n) * IZR n)%R with (PI / 2)%R.
  - rewrite cos_PI2, sin_PI2. reflexivity.
  - rewrite mult_IZR. field. apply not_0_IZR. lia.
Qed.
Lemma eN_unit N a : ((cconj Rops (eN N a) : RC) * eN N a)%num = 1%num.
Proof.
  unfold eN, cosN, sinN. set (x := (PI / IZR N * IZR a)%R). pose proof (sin2_cos2 x) as H. unfold Rsqr in H.
  apply c_eq; unfold cre, cim; cbn; [|ring]. rewrite <- H. ring.
Qed.

Lemma eN_mod N a : 0 < N -> eN N (a mod (2 * N)) = eN N a.
Proof.
  intros HN. pose proof (RTheory : ring_theory (@o0 Rops) o1 oadd omul osub oopp eq) as _.
  assert (H2 : eN N (2 * N) = 1%num).
  { replace (2 * N) with (N + N) by lia. rewrite eN_add, eN_N by auto. apply c_eq; unfold cre, cim; cbn; ring. }
  assert (H1 : forall x : RC, (x * 1)%num = x) by (intros x; apply c_eq; unfold cre, cim; cbn; ring).
  assert (H : forall z, eN N (2 * N * z) = 1%num).
  { apply Z.bi_induction.
    - intros ? ? ->. reflexivity.
    - rewrite Z.mul_0_r. apply eN_0.
    - intros n. replace (2 * N * Z.succ n) with (2 * N * n + 2 * N) by lia. rewrite eN_add, H2, H1. tauto. }
  rewrite (Z.div_mod a (2 * N)) at 2 by lia. rewrite Z.add_comm, eN_add, H, H1. reflexivity.
Qed.

Lemma int_mod5 f N : 0 <= f < 2 * N -> 0 < N <= 2 ^ 27 ->
  (t <- int_ (f * 5) ;; N2 <- int_ (2 * N) ;; imod t N2) = Ok ((f * 5) mod (2 * N)).
Proof.
  intros Hf HN. rewrite int_in by lia. cbn [bind]. rewrite int_in by lia. cbn [bind]. rewrite imod_ok by lia.
  rewrite Z.rem_mod_nonneg by lia. reflexivity.
Qed.

(** ** splitU0NR *)
Lemma blk_split M p : 0 < M -> 0 <= p ->
  exists q r, p = 2 * M * q + r /\ 0 <= q /\ 0 <= r < 2 * M /\ p / (2 * M) = q /\ p mod (2 * M) = r /\ p mod M = (if r <? M then r else r - M).
Proof.
  intros HM Hp. exists (p / (2 * M)), (p mod (2 * M)).
  pose proof (Z.div_mod p (2 * M) ltac:(lia)) as E. pose proof (Z.mod_pos_bound p (2 * M) ltac:(lia)) as Hr.
  split; [exact E|]. split; [apply Z.div_pos; lia|]. split; [auto|]. split; [auto|]. split; [auto|].
  set (q := p / (2 * M)) in *. set (r := p mod (2 * M)) in *. clearbody q r. subst p. destruct (Z.ltb_spec r M).
  - replace (2 * M * q + r) with (r + 2 * q * M) by lia. rewrite Z.mod_add, Z.mod_small by lia. reflexivity.
  - replace (2 * M * q + r) with (r - M + (2 * q + 1) * M) by lia. rewrite Z.mod_add, Z.mod_small by lia. reflexivity.
Qed.
Lemma blk_eq M q r k i : 0 < M -> 0 <= r < 2 * M -> 0 <= i < 2 * M -> (2 * M * q + r =? 2 * M * k + i) = (q =? k) && (r =? i).
Proof.
  intros HM Hr Hi. destruct (Z.eqb_spec q k) as [->|Hne]; cbn [andb].
  - destruct (Z.eqb_spec r i); [subst; apply Z.eqb_refl|]. apply Z.eqb_neq. lia.
  - apply Z.eqb_neq. intros E. apply Hne. assert (2 * M * (q - k) = i - r) by lia.
    assert (q - k = 0) by (destruct (Z.lt_trichotomy (q - k) 0) as [?|[?|?]]; nia). lia.
Qed.

Section Split.
Context (n M c : Z) (HM : 0 < M) (Hc : 0 < c) (Hn : n = 2 * M * c) (Hnb : n <= 2 ^ 26).
Context (cs sn : Z -> R).

Definition o3 (s : Z) : Z := if s =? 0 then 0 else if s =? 1 then M else n - M.
Definition sH : Z := if c =? 1 then 1 else 2.
Definition VR (s p : Z) : R :=
  let r := p mod M in
  if p mod (2 * M) <? M then (if s =? 0 then 1 else if s =? 1 then cs r else 0)%R
  else (if s =? 0 then - cs r else if s =? sH then 1 else 0)%R.
Definition VI (s p : Z) : R :=
  let r := p mod M in
  if p mod (2 * M) <? M then (if s =? 1 then sn r else 0)%R else (if s =? 0 then - sn r else 0)%R.
Definition zR (s : Z) : bool := (s =? 2) && (c =? 1).
Definition zI (s : Z) : bool := s =? 2.

Lemma first_is i j o s : 0 <= s < 3 -> ondiag n i j (o s) = true -> (forall t, 0 <= t < s -> ondiag n i j (o t) = false) ->
  first_diag n 3 i j o = s.
Proof.
  intros Hs H1 H2. pose proof (first_diag_spec n 3 i j o ltac:(lia)) as H. cbv zeta in H. destruct H as (Hr & Hb & Ha).
  destruct (Z.lt_trichotomy (first_diag n 3 i j o) s) as [H|[H|H]]; auto; exfalso.
  - rewrite H2 in Ha by lia. specialize (Ha ltac:(lia)). discriminate.
  - rewrite Hb in H1 by lia. discriminate.
Qed.
Lemma n_ge : 2 * M <= n.
Proof. nia. Qed.
Lemma o3_ok : off_ok 3 o3.
Proof. intros s Hs. unfold o3. pose proof n_ge. destruct (s =? 0), (s =? 1); lia. Qed.

Lemma set_at s i j x (v : Z -> Z -> Rops) z : 0 <= s < 3 -> 0 <= i < n -> 0 <= j < n -> first_diag n 3 i j o3 = s ->
  set_element (K := Rops) n 3 (sdi n 3 v o3 z) i j x = Ok (sdi n 3 (up2 v s i x) o3 (up1 z s false)).
Proof.
  intros Hs Hi Hj E. pose proof n_ge. rewrite set_element_ok by (auto using o3_ok; lia). cbv zeta. rewrite E.
  destruct (Z.ltb_spec s 3); [reflexivity|lia].
Qed.
Lemma fd_same p : first_diag n 3 p p o3 = 0.
Proof.
  apply first_is; [lia| |intros; lia]. unfold ondiag, o3. cbn. replace (p - p - 0) with 0 by lia.
  rewrite Z.mod_0_l; [reflexivity|]. pose proof n_ge. lia.
Qed.
Lemma small_mod a : 0 < a < n -> (a mod n =? 0) = false.
Proof. intros H. rewrite Z.mod_small by lia. apply Z.eqb_neq. lia. Qed.
Lemma neg_mod a : 0 < a < n -> (- a) mod n <> 0.
Proof.
  intros H E. apply Z.mod_divide in E; [|lia]. destruct E as [q E].
  assert (q = 0 -> False) by (intros ->; lia). assert (q < 0 \/ q > 0) as [?|?] by lia; nia.
Qed.
Lemma fd_up p : first_diag n 3 p (p + M) o3 = 1.
Proof.
  pose proof n_ge. apply first_is; [lia| |].
  - unfold ondiag, o3. cbn. replace (p + M - p - M) with 0 by lia. rewrite Z.mod_0_l; [reflexivity|lia].
  - intros t Ht. assert (t = 0) as -> by lia. unfold ondiag, o3. cbn. replace (p + M - p - 0) with M by lia. apply small_mod. lia.
Qed.
Lemma fd_down p : first_diag n 3 (p + M) p o3 = sH.
Proof.
  pose proof n_ge. unfold sH. destruct (Z.eqb_spec c 1) as [Hc1|Hc1].
  - apply first_is; [lia| |].
    + unfold ondiag, o3. cbn. replace (p - (p + M) - M) with ((-1) * n) by (rewrite Hn, Hc1; lia). rewrite Z.mod_mul by lia. reflexivity.
    + intros t Ht. assert (t = 0) as -> by lia. unfold ondiag, o3. cbn. replace (p - (p + M) - 0) with (- M) by lia.
      apply Z.eqb_neq. apply neg_mod. lia.
  - apply first_is; [lia| |].
    + unfold ondiag, o3. cbn. replace (p - (p + M) - (n - M)) with ((-1) * n) by lia. rewrite Z.mod_mul by lia. reflexivity.
    + intros t Ht. assert (t = 0 \/ t = 1) as [-> | ->] by lia; unfold ondiag, o3; cbn; apply Z.eqb_neq.
      * replace (p - (p + M) - 0) with (- M) by lia. apply neg_mod. lia.
      * replace (p - (p + M) - M) with (- (2 * M)) by lia. apply neg_mod. nia.
Qed.

Definition doneb (k i p : Z) : bool := (p / (2 * M) <? k) || ((p / (2 * M) =? k) && (p mod M <? i)).
Definition vat (V : Z -> Z -> R) (k i s p : Z) : R := if doneb k i p then V s p else 0%R.
Definition zat (z : Z -> bool) (k i s : Z) : bool := if (k =? 0) && (i =? 0) then true else z s.

Lemma sH_range : 0 <= sH < 3.
Proof. unfold sH. destruct (c =? 1); lia. Qed.

Lemma vr_step k i s p : 0 <= k < c -> 0 <= i < M -> 0 <= s < 3 -> 0 <= p < n ->
  up2 (up2 (up2 (up2 (vat VR k i) 0 (2 * M * k + i) 1%R) sH (2 * M * k + M + i) 1%R) 1 (2 * M * k + i) (cs i)) 0 (2 * M * k + M + i) (- cs i)%R s p
  = vat VR k (i + 1) s p.
Proof.
  intros Hk Hi Hs Hp. destruct (blk_split M p HM ltac:(lia)) as (q & r & Ep & Hq & Hr & Eq & Er & Em).
  unfold vat, doneb, VR, up2. rewrite Eq, Er, Em, Ep. replace (2 * M * k + M + i) with (2 * M * k + (M + i)) by lia.
  rewrite !(blk_eq M q r k) by lia. unfold sH.
  destruct (Z.eqb_spec q k) as [->|Hne]; cbn [andb].
  - rewrite Z.ltb_irrefl. cbn [orb andb].
    destruct (Z.ltb_spec r M).
    + destruct (Z.eqb_spec r (M + i)); [lia|]. destruct (Z.eqb_spec r i) as [->|].
      * destruct (Z.ltb_spec i (i + 1)), (Z.ltb_spec i i); try lia. rewrite !andb_true_r, !andb_false_r.
        assert (s = 0 \/ s = 1 \/ s = 2) as [->|[->| ->]] by lia; cbn; reflexivity.
      * rewrite !andb_false_r. destruct (Z.ltb_spec r i), (Z.ltb_spec r (i + 1)); try lia; reflexivity.
    + destruct (Z.eqb_spec r i); [lia|]. destruct (Z.eqb_spec r (M + i)) as [->|].
      * replace (M + i - M) with i by lia. destruct (Z.ltb_spec i (i + 1)), (Z.ltb_spec i i); try lia. rewrite !andb_true_r, !andb_false_r.
        destruct (c =? 1); assert (s = 0 \/ s = 1 \/ s = 2) as [->|[->| ->]] by lia; cbn; reflexivity.
      * rewrite !andb_false_r. destruct (Z.ltb_spec (r - M) i), (Z.ltb_spec (r - M) (i + 1)); try lia; reflexivity.
  - rewrite !andb_false_r. rewrite !orb_false_r. reflexivity.
Qed.
Lemma vi_step k i s p : 0 <= k < c -> 0 <= i < M -> 0 <= s < 3 -> 0 <= p < n ->
  up2 (up2 (vat VI k i) 1 (2 * M * k + i) (sn i)) 0 (2 * M * k + M + i) (- sn i)%R s p = vat VI k (i + 1) s p.
Proof.
  intros Hk Hi Hs Hp. destruct (blk_split M p HM ltac:(lia)) as (q & r & Ep & Hq & Hr & Eq & Er & Em).
  unfold vat, doneb, VI, up2. rewrite Eq, Er, Em, Ep. replace (2 * M * k + M + i) with (2 * M * k + (M + i)) by lia.
  rewrite !(blk_eq M q r k) by lia.
  destruct (Z.eqb_spec q k) as [->|Hne]; cbn [andb].
  - rewrite Z.ltb_irrefl. cbn [orb andb].
    destruct (Z.ltb_spec r M).
    + destruct (Z.eqb_spec r (M + i)); [lia|]. destruct (Z.eqb_spec r i) as [->|].
      * destruct (Z.ltb_spec i (i + 1)), (Z.ltb_spec i i); try lia. rewrite !andb_true_r, !andb_false_r.
        assert (s = 0 \/ s = 1 \/ s = 2) as [->|[->| ->]] by lia; cbn; reflexivity.
      * rewrite !andb_false_r. destruct (Z.ltb_spec r i), (Z.ltb_spec r (i + 1)); try lia; reflexivity.
    + destruct (Z.eqb_spec r i); [lia|]. destruct (Z.eqb_spec r (M + i)) as [->|].
      * replace (M + i - M) with i by lia. destruct (Z.ltb_spec i (i + 1)), (Z.ltb_spec i i); try lia. rewrite !andb_true_r, !andb_false_r.
        assert (s = 0 \/ s = 1 \/ s = 2) as [->|[->| ->]] by lia; cbn; reflexivity.
      * rewrite !andb_false_r. destruct (Z.ltb_spec (r - M) i), (Z.ltb_spec (r - M) (i + 1)); try lia; reflexivity.
  - rewrite !andb_false_r. rewrite !orb_false_r. reflexivity.
Qed.
Lemma zr_step k i s : 0 <= k -> 0 <= i -> 0 <= s < 3 ->
  up1 (up1 (up1 (up1 (zat zR k i) 0 false) sH false) 1 false) 0 false s = zat zR k (i + 1) s.
Proof.
  intros Hk Hi Hs. unfold zat, up1, zR, sH. destruct (Z.eqb_spec (i + 1) 0); [lia|]. rewrite andb_false_r.
  destruct (c =? 1); assert (s = 0 \/ s = 1 \/ s = 2) as [->|[->| ->]] by lia; cbn; auto; destruct ((k =? 0) && (i =? 0)); auto.
Qed.
Lemma zi_step k i s : 0 <= k -> 0 <= i -> 0 <= s < 3 ->
  up1 (up1 (zat zI k i) 1 false) 0 false s = zat zI k (i + 1) s.
Proof.
  intros Hk Hi Hs. unfold zat, up1, zI. destruct (Z.eqb_spec (i + 1) 0); [lia|]. rewrite andb_false_r.
  assert (s = 0 \/ s = 1 \/ s = 2) as [->|[->| ->]] by lia; cbn; auto; destruct ((k =? 0) && (i =? 0)); auto.
Qed.

Lemma v_row V k s p : 0 <= p -> vat V k M s p = vat V (k + 1) 0 s p.
Proof.
  intros Hp. unfold vat, doneb. pose proof (Z.mod_pos_bound p M HM). set (q := p / (2 * M)).
  destruct (Z.ltb_spec q k), (Z.eqb_spec q k), (Z.ltb_spec (p mod M) M), (Z.ltb_spec q (k + 1)), (Z.eqb_spec q (k + 1)), (Z.ltb_spec (p mod M) 0);
    cbn; auto; lia.
Qed.
Lemma z_row z k s : 0 <= k -> zat z k M s = zat z (k + 1) 0 s.
Proof.
  intros Hk. unfold zat. destruct (Z.eqb_spec M 0); [lia|]. destruct (Z.eqb_spec (k + 1) 0); [lia|]. rewrite andb_false_r. reflexivity.
Qed.
End Split.

Lemma split_stage_ok LOGN d Ar Ai a0 b0 c0 a1 b1 c1 : 2 <= LOGN <= 27 -> 0 <= d < LOGN - 1 ->
  Ar = sdt (2 ^ (LOGN - 1)) 3 a0 b0 c0 -> Ai = sdt (2 ^ (LOGN - 1)) 3 a1 b1 c1 ->
  let n := 2 ^ (LOGN - 1) in let M := 2 ^ (LOGN - d - 2) in let c := 2 ^ d in
  split_stage LOGN d Ar Ai = Ok (sdi n 3 (VR M c (fun i => cosN (2 * n) (c * 5 ^ i))) (o3 n M) (zR c),
                                 sdi n 3 (VI M (fun i => sinN (2 * n) (c * 5 ^ i))) (o3 n M) zI).
Proof.
  intros HL Hd EAr EAi. cbv zeta. unfold split_stage.
  assert (HN : 2 ^ LOGN = 2 * 2 ^ (LOGN - 1)) by (rewrite <- Z.pow_succ_r by lia; f_equal; lia).
  assert (Hn : 2 ^ (LOGN - 1) = 2 * 2 ^ (LOGN - d - 2) * 2 ^ d).
  { rewrite <- Z.pow_succ_r, <- Z.pow_add_r by lia. f_equal. lia. }
  assert (Hnb : 2 ^ (LOGN - 1) <= 2 ^ 26) by (apply Z.pow_le_mono_r; lia).
  assert (HM : 0 < 2 ^ (LOGN - d - 2)) by (apply Z.pow_pos_nonneg; lia).
  assert (Hc : 0 < 2 ^ d) by (apply Z.pow_pos_nonneg; lia).
  rewrite HN. set (n := 2 ^ (LOGN - 1)) in *. set (M := 2 ^ (LOGN - d - 2)) in *. set (c := 2 ^ d) in *. clearbody n M c.
  assert (Hge : 2 * M <= n) by nia.
  replace (2 * n / 2) with n by (rewrite Z.mul_comm, Z.div_mul; lia).
  rewrite (sd_setzero_ok (K := Rops) n 3 Ar a0 b0 c0) by (auto; lia). cbn [bind].
  rewrite (sd_setzero_ok (K := Rops) n 3 Ai a1 b1 c1) by (auto; lia). cbn [bind].
  repeat (rewrite set_off_sdi by lia; cbn [bind]).
  set (cs := fun i => cosN (2 * n) (c * 5 ^ i)). set (sn := fun i => sinN (2 * n) (c * 5 ^ i)).
  pose (z0 := fun (_ _ : Z) => (0%R : Rops)).
  rewrite (for_closed _ (fun k => (sdi (F := Rops) n 3 (vat M (VR M c cs) k 0) (o3 n M) (zat (zR c) k 0),
      sdi (F := Rops) n 3 (vat M (VI M sn) k 0) (o3 n M) (zat zI k 0))) _ _ _
      (sdi (F := Rops) n 3 (VR M c cs) (o3 n M) (zR c), sdi (F := Rops) n 3 (VI M sn) (o3 n M) zI)); auto; try lia.
  - f_equal; apply sdi_ext; intros.
    all: try (unfold vat, doneb; pose proof (Z.div_pos i (2 * M) ltac:(lia) ltac:(lia)); pose proof (Z.mod_pos_bound i M ltac:(lia));
      destruct (Z.ltb_spec (i / (2 * M)) 0), (Z.ltb_spec (i mod M) 0); try lia; rewrite andb_false_r; reflexivity).
    all: try reflexivity.
    all: unfold up1, o3; assert (s = 0 \/ s = 1 \/ s = 2) as [->|[->| ->]] by lia; reflexivity.
  - f_equal; apply sdi_ext; intros.
    all: try (unfold vat, doneb; assert (i / (2 * M) < c) by (apply Z.div_lt_upper_bound; lia); destruct (Z.ltb_spec (i / (2 * M)) c); [reflexivity|lia]).
    all: try reflexivity.
    all: unfold zat; destruct (Z.eqb_spec c 0); [lia|reflexivity].
  - intros k Hk. pose (N := 2 * n).
    rewrite (for_closed _ (fun i => (sdi (F := Rops) n 3 (vat M (VR M c cs) k i) (o3 n M) (zat (zR c) k i),
      sdi (F := Rops) n 3 (vat M (VI M sn) k i) (o3 n M) (zat zI k i), (c * 5 ^ i) mod (2 * N))) _ _ _
      (sdi (F := Rops) n 3 (vat M (VR M c cs) k M) (o3 n M) (zat (zR c) k M),
      sdi (F := Rops) n 3 (vat M (VI M sn) k M) (o3 n M) (zat zI k M), (c * 5 ^ M) mod (2 * N))); auto; try lia.
    + cbn [bind]. f_equal. f_equal; apply sdi_ext; intros; auto.
      all: first [apply (v_row M HM); lia | apply (z_row M HM); lia].
    + apply f_equal. rewrite Z.pow_0_r, Z.mul_1_r. symmetry. apply Z.mod_small. unfold N. nia.
    + intros i Hi. assert (Hp : 0 <= 2 * M * k + i /\ 2 * M * k + M + i < n) by nia.
      pose proof (set_at n M c HM Hc Hn Hnb) as SA.
      replace (2 * M * k + M + i) with (2 * M * k + i + M) by lia.
      rewrite (SA 0) by (try lia; apply (fd_same n M c); auto). cbn [bind].
      rewrite (SA (sH c)) by (try (unfold sH; destruct (c =? 1); lia); try lia; apply (fd_down n M c); auto). cbn [bind].
      rewrite (SA 1) by (try lia; apply (fd_up n M c); auto). cbn [bind].
      rewrite (SA 1) by (try lia; apply (fd_up n M c); auto). cbn [bind].
      rewrite (SA 0) by (try lia; apply (fd_same n M c); auto). cbn [bind].
      rewrite (SA 0) by (try lia; apply (fd_same n M c); auto). cbn [bind].
      replace (2 * M * k + i + M) with (2 * M * k + M + i) by lia.
      assert (HmN : 0 <= (c * 5 ^ i) mod (2 * N) < 2 * N) by (apply Z.mod_pos_bound; unfold N; lia).
      pose proof (int_mod5 ((c * 5 ^ i) mod (2 * N)) N HmN ltac:(unfold N; lia)) as HI. fold N.
      destruct (int_ ((c * 5 ^ i) mod (2 * N) * 5)); cbn [bind] in HI |- *; try discriminate.
      destruct (int_ (2 * N)); cbn [bind] in HI |- *; try discriminate. rewrite HI. cbn [bind].
      assert (Ec : cosN N ((c * 5 ^ i) mod (2 * N)) = cs i /\ sinN N ((c * 5 ^ i) mod (2 * N)) = sn i).
      { assert (E : eN N ((c * 5 ^ i) mod (2 * N)) = eN N (c * 5 ^ i)).
        { apply eN_mod. unfold N. lia. }
        unfold eN, mk in E. injection E. auto. }
      destruct Ec as [-> ->].
      f_equal. f_equal; [f_equal|].
      * apply sdi_ext; intros; auto. { apply (vr_step n M c HM Hc cs k i s i0); auto. } { apply zr_step; lia. }
      * apply sdi_ext; intros; auto. { apply (vi_step n M c HM Hc sn k i s i0); auto. } { apply zi_step; lia. }
      * rewrite Z.mul_mod_idemp_l by (unfold N; lia). f_equal. rewrite Z.pow_add_r by lia. ring.
Qed.
