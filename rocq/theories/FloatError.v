(** Error of the floating-point transforms. *)
From Coq Require Import ZArith List Bool Lia Reals Lra Ring.
From Verif Require Import Base BaseFacts Util UtilFacts GSum Matrix MatrixFacts MatMulFacts DFT DFTTheory DFTFacts FFTFacts Encode EncodeFacts SpecMat SpecDFT SpecEnc SlotFacts LinSlots BootFacts PiBound.
From Verif Require Import Float SpecFloat FloatFacts.
Import ListNotations.
Open Scope R_scope.

Lemma small_mul u v : 0 <= u <= / 1024 -> 0 <= v -> 0 <= u * v <= v / 1024.
Proof. intros [H1 H2] Hv. split; [apply Rmult_le_pos; auto|]. unfold Rdiv. rewrite (Rmult_comm v). apply Rmult_le_compat_r; auto. Qed.
Lemma small_mul64 u v : 0 <= u <= / 64 -> 0 <= v -> 0 <= u * v <= v / 64.
Proof. intros [H1 H2] Hv. split; [apply Rmult_le_pos; auto|]. unfold Rdiv. rewrite (Rmult_comm v). apply Rmult_le_compat_r; auto. Qed.
Lemma abs_le x y : Rabs x <= y -> - y <= x <= y.
Proof. intros H. unfold Rabs in H. destruct (Rcase_abs x); lra. Qed.
Lemma abs_mul_le x y a b : Rabs x <= a -> Rabs y <= b -> Rabs (x * y) <= a * b.
Proof. intros. rewrite Rabs_mult. apply Rmult_le_compat; auto using Rabs_pos. Qed.

Section Err.
Context (u eta top : R) (rd : R -> R) (Hu : 0 <= u <= / 1024) (He : 0 <= eta <= / 1024).
Context (Hrd : forall x, Rabs x <= top -> Rabs (rd x - x) <= u * Rabs x + eta).

(** rounding a number that is already off by E *)
Lemma round_near x y E Y : Rabs (x - y) <= E -> Rabs y <= Y -> Y + E <= top -> Rabs (rd x - y) <= E + u * (Y + E) + eta.
Proof.
  intros H1 H2 H3. assert (Hx : Rabs x <= Y + E) by (replace x with (y + (x - y)) by ring; eapply Rle_trans; [apply Rabs_triang|lra]).
  pose proof (Hrd x ltac:(lra)) as H. replace (rd x - y) with ((rd x - x) + (x - y)) by ring. eapply Rle_trans; [apply Rabs_triang|].
  assert (u * Rabs x <= u * (Y + E)) by (apply Rmult_le_compat_l; lra). lra.
Qed.

Context (tau : R) (Ht : 0 <= tau <= / 64).
(** an entry (ar,ai) of the computed table for the entry (a,b) *)
Definition entry (ar ai a b c : R) : Prop :=
  (c = 0 /\ ar = 0 /\ ai = 0 /\ a = 0 /\ b = 0) \/ (c = 1 /\ a * a + b * b = 1 /\ Rabs (ar - a) <= tau /\ Rabs (ai - b) <= tau).

Context (X : R) (HX : 4 * X + 1 <= top).
Definition term_bound (c : R) : R := c * (2 * tau * X + 31 / 10 * u * X) + 31 / 10 * eta.

Lemma unit_le a b : a * a + b * b = 1 -> Rabs a <= 1.
Proof. intros H. assert (0 <= b * b) by apply Rle_0_sqr. apply Rabs_le. split; nra. Qed.

Lemma pair_err ar ai a b c x y sg : 0 <= X -> Rabs x <= X -> Rabs y <= X -> entry ar ai a b c -> sg = 1 \/ sg = -1 ->
  Rabs (a * x + sg * (b * y)) <= c * X ->
  Rabs (rd (rd (ar * x) + sg * rd (ai * y)) - (a * x + sg * (b * y))) <= term_bound c.
Proof.
  intros HX0 Hx Hy He' Hs HT. unfold term_bound.
  pose proof (small_mul u X Hu HX0) as F1. pose proof (small_mul64 tau X Ht HX0) as F2. pose proof (small_mul u eta Hu ltac:(lra)) as F3.
  pose proof (small_mul u (tau * X) Hu ltac:(lra)) as F4. pose proof (small_mul u (u * X) Hu ltac:(lra)) as F5.
  pose proof (small_mul u (u * (tau * X)) Hu ltac:(lra)) as F6. pose proof (small_mul u (u * eta) Hu ltac:(lra)) as F7.
  pose proof (small_mul64 tau (u * X) Ht ltac:(lra)) as F8. pose proof (small_mul64 tau (u * (u * X)) Ht ltac:(lra)) as F9.
  assert (A : exists E, Rabs (rd (ar * x) - a * x) <= E /\ Rabs (rd (ai * y) - b * y) <= E /\ 0 <= E /\ E <= c * (tau * X + u * (X + tau * X)) + eta /\ 0 <= c <= 1).
  { destruct He' as [(-> & -> & -> & -> & ->)|(-> & Hn & H1 & H2)].
    - exists eta. rewrite !Rmult_0_l. pose proof (Hrd 0 ltac:(rewrite Rabs_R0; lra)) as H. rewrite Rabs_R0, Rmult_0_r in H. repeat split; try lra.
    - exists (tau * X + u * (X + tau * X) + eta).
      assert (Ha : Rabs a <= 1) by (apply (unit_le a b); auto). assert (Hb : Rabs b <= 1) by (apply (unit_le b a); lra).
      repeat split; try lra.
      + apply round_near; try lra. { replace (ar * x - a * x) with ((ar - a) * x) by ring. apply abs_mul_le; auto. } { pose proof (abs_mul_le a x 1 X Ha Hx). lra. }
      + apply round_near; try lra. { replace (ai * y - b * y) with ((ai - b) * y) by ring. apply abs_mul_le; auto. } { pose proof (abs_mul_le b y 1 X Hb Hy). lra. } }
  destruct A as (E & A1 & A2 & A3 & A4 & Hc).
  assert (B : Rabs (rd (ar * x) + sg * rd (ai * y) - (a * x + sg * (b * y))) <= 2 * E).
  { replace (rd (ar * x) + sg * rd (ai * y) - (a * x + sg * (b * y))) with ((rd (ar * x) - a * x) + sg * (rd (ai * y) - b * y)) by ring.
    eapply Rle_trans; [apply Rabs_triang|]. rewrite Rabs_mult. replace (Rabs sg) with 1; [lra|]. destruct Hs as [-> | ->]; unfold Rabs; destruct (Rcase_abs _); lra. }
  destruct He' as [(-> & _)|(-> & _)].
  - rewrite !Rmult_0_l, Rplus_0_l in *. pose proof (small_mul u E Hu A3).
    eapply Rle_trans; [apply (round_near _ _ _ 0 B); lra|]. lra.
  - rewrite !Rmult_1_l in *. eapply Rle_trans; [apply (round_near _ _ _ X B); try lra|].
    rewrite !Rmult_plus_distr_l in *. assert (u * (2 * E) <= 2 * (u * (tau * X) + (u * (u * X) + u * (u * (tau * X))) + u * eta)).
    { replace (u * (2 * E)) with (2 * (u * E)) by ring. apply Rmult_le_compat_l; [lra|].
      eapply Rle_trans; [apply Rmult_le_compat_l; [lra|exact A4]|]. lra. }
    lra.
Qed.

(** the sum of three terms *)
Lemma sum3_err t0 t1 t2 T0 T1 T2 c0 c1 c2 : 0 <= X -> 0 <= c0 <= 1 -> 0 <= c1 <= 1 -> 0 <= c2 <= 1 -> c0 + c1 + c2 <= 2 ->
  Rabs (t0 - T0) <= term_bound c0 -> Rabs (t1 - T1) <= term_bound c1 -> Rabs (t2 - T2) <= term_bound c2 ->
  Rabs T0 <= c0 * X -> Rabs T1 <= c1 * X -> Rabs T2 <= c2 * X ->
  Rabs (rd (rd (rd (0 + t0) + t1) + t2) - (T0 + T1 + T2)) <= 41 / 10 * (tau * X) + 13 * (u * X) + 13 * eta.
Proof.
  intros HX0 H0 H1 H2 Hc E0 E1 E2 B0 B1 B2. unfold term_bound in *. set (q := 2 * tau * X + 31 / 10 * u * X) in *.
  pose proof (small_mul u X Hu HX0) as F1. pose proof (small_mul64 tau X Ht HX0) as F2. pose proof (small_mul u eta Hu ltac:(lra)) as F3.
  assert (Hq : 0 <= q) by (unfold q; nra). assert (Hq2 : q <= X / 25) by (unfold q; lra).
  pose proof (small_mul u q Hu Hq) as F4.
  assert (P : forall c, 0 <= c <= 1 -> 0 <= c * q <= q) by (intros c Hcc; split; [apply Rmult_le_pos; lra|nra]).
  assert (Q : forall c, 0 <= c <= 1 -> 0 <= c * X <= X) by (intros c Hcc; split; [apply Rmult_le_pos; lra|nra]).
  pose proof (P c0 H0) as P0. pose proof (P c1 H1) as P1. pose proof (P c2 H2) as P2.
  pose proof (Q c0 H0) as Q0. pose proof (Q c1 H1) as Q1. pose proof (Q c2 H2) as Q2.
  assert (S3 : c0 * q + c1 * q + c2 * q <= 2 * q) by (rewrite <- !Rmult_plus_distr_r; apply Rmult_le_compat_r; lra).
  assert (S2 : c0 * X + c1 * X + c2 * X <= 2 * X) by (rewrite <- !Rmult_plus_distr_r; apply Rmult_le_compat_r; lra).
  set (e := 31 / 10 * eta) in *.
  pose (G1 := c0 * q + e + u * (X + 2 * q + 2 * e) + eta).
  assert (A1 : Rabs (rd (0 + t0) - T0) <= G1).
  { unfold G1. eapply Rle_trans; [apply (round_near (0 + t0) T0 (c0 * q + e) (c0 * X)); [rewrite Rplus_0_l; exact E0|exact B0|unfold e; lra]|].
    assert (u * (c0 * X + (c0 * q + e)) <= u * (X + 2 * q + 2 * e)) by (apply Rmult_le_compat_l; [lra|unfold e; lra]). lra. }
  assert (Gb : u * (X + 2 * q + 2 * e) <= 11 / 10 * (u * X) + eta / 100) by (unfold e; rewrite !Rmult_plus_distr_l; pose proof (Rmult_le_compat_l u q (X / 25) ltac:(lra) Hq2); lra).
  assert (Gp : 0 <= G1) by (unfold G1, e; pose proof (small_mul u (X + 2 * q + 2 * e) Hu ltac:(unfold e; lra)); unfold e in *; lra).
  pose (G2 := G1 + c1 * q + e + u * (2 * X + 2 * q + 3 * e + X / 10) + eta).
  assert (A2 : Rabs (rd (rd (0 + t0) + t1) - (T0 + T1)) <= G2).
  { unfold G2. eapply Rle_trans; [apply (round_near _ (T0 + T1) (G1 + (c1 * q + e)) (2 * X))|].
    - replace (rd (0 + t0) + t1 - (T0 + T1)) with ((rd (0 + t0) - T0) + (t1 - T1)) by ring. eapply Rle_trans; [apply Rabs_triang|lra].
    - eapply Rle_trans; [apply Rabs_triang|lra].
    - unfold G1, e in *; lra.
    - assert (u * (2 * X + (G1 + (c1 * q + e))) <= u * (2 * X + 2 * q + 3 * e + X / 10)) by (apply Rmult_le_compat_l; [lra|unfold G1, e in *; lra]). lra. }
  assert (Gb2 : u * (2 * X + 2 * q + 3 * e + X / 10) <= 22 / 10 * (u * X) + eta / 50) by (unfold e; rewrite !Rmult_plus_distr_l; pose proof (Rmult_le_compat_l u q (X / 25) ltac:(lra) Hq2); lra).
  assert (Gp2 : 0 <= u * (2 * X + 2 * q + 3 * e + X / 10)) by (apply Rmult_le_pos; [lra|unfold e; lra]).
  assert (A3 : Rabs (rd (rd (rd (0 + t0) + t1) + t2) - (T0 + T1 + T2)) <= G2 + (c2 * q + e) + u * (2 * X + 2 * q + 4 * e + X / 10) + eta).
  { eapply Rle_trans; [apply (round_near _ (T0 + T1 + T2) (G2 + (c2 * q + e)) (2 * X))|].
    - replace (rd (rd (0 + t0) + t1) + t2 - (T0 + T1 + T2)) with ((rd (rd (0 + t0) + t1) - (T0 + T1)) + (t2 - T2)) by ring. eapply Rle_trans; [apply Rabs_triang|lra].
    - eapply Rle_trans; [apply Rabs_triang|]. pose proof (Rabs_triang T0 T1). lra.
    - unfold G2, G1, e in *; lra.
    - assert (u * (2 * X + (G2 + (c2 * q + e))) <= u * (2 * X + 2 * q + 4 * e + X / 10)) by (apply Rmult_le_compat_l; [lra|unfold G2, G1, e in *; lra]). lra. }
  assert (Gb3 : u * (2 * X + 2 * q + 4 * e + X / 10) <= 22 / 10 * (u * X) + eta / 50) by (unfold e; rewrite !Rmult_plus_distr_l; pose proof (Rmult_le_compat_l u q (X / 25) ltac:(lra) Hq2); lra).
  eapply Rle_trans; [exact A3|]. unfold G2, G1, e in *. unfold q in S3, Gb, Gb2, Gb3 |- *. lra.
Qed.
End Err.

Lemma modulus_comp (z : CC) G : Rabs (cre Rops z) <= G -> Rabs (cim Rops z) <= G -> modulus z <= 1415 / 1000 * G.
Proof.
  intros H1 H2. assert (HG : 0 <= G) by (pose proof (Rabs_pos (cre Rops z)); lra). unfold modulus. rewrite <- (sqrt_Rsqr (1415 / 1000 * G)) by lra.
  apply sqrt_le_1_alt. unfold Rsqr.
  assert (A : cre Rops z * cre Rops z <= G * G) by (apply abs_le in H1; change (car Rops) with R in *; nra).
  assert (B : cim Rops z * cim Rops z <= G * G) by (apply abs_le in H2; change (car Rops) with R in *; nra).
  change (car Rops) with R in *. nra.
Qed.

Section Row.
Context (F : fpu) (u eta top tau : R) (Hu : 0 <= u <= / 1024) (He : 0 <= eta <= / 1024) (Ht : 0 <= tau <= / 64).
Context (Hrd : forall x, Rabs x <= top -> Rabs (rnd F x - x) <= u * Rabs x + eta).
Context (X : R) (HX0 : 0 <= X) (HX : 4 * X + 1 <= top).

Lemma unit_re (a b x y c : R) (z : CC) : z = mk Rops x y -> modulus z <= X -> ((c = 0 /\ a = 0 /\ b = 0) \/ (c = 1 /\ a * a + b * b = 1)) -> Rabs (a * x - b * y) <= c * X /\ Rabs (a * y + b * x) <= c * X.
Proof.
  intros Ez Hz [(-> & -> & ->)|(-> & Hn)].
  - rewrite !Rmult_0_l. replace (0 - 0) with 0 by ring. replace (0 + 0) with 0 by ring. rewrite Rabs_R0. lra.
  - assert (E : modulus ((mk Rops a b : CC) * z)%num <= X).
    { rewrite modulus_mul. replace (modulus (mk Rops a b)) with 1; [lra|]. unfold modulus, cre, cim. cbn. rewrite Hn. symmetry. apply sqrt_1. }
    subst z. pose proof (modulus_cre ((mk Rops a b : CC) * (mk Rops x y : CC))%num) as A. pose proof (modulus_cim ((mk Rops a b : CC) * (mk Rops x y : CC))%num) as B.
    unfold cre, cim in A, B. cbn in A, B. rewrite Rmult_1_l. split; eapply Rle_trans; try apply E; auto.
Qed.

Lemma row_err n (vr vi wr wi : Z -> Z -> R) (o : Z -> Z) (x : Z -> RC) p (c : Z -> R) : (0 < n)%Z -> (forall q, (0 <= q < n)%Z -> modulus (x q) <= X) ->
  (forall k, (0 <= k < 3)%Z -> entry tau (vr k p) (vi k p) (wr k p) (wi k p) (c k)) -> c 0%Z + c 1%Z + c 2%Z <= 2 ->
  modulus ((raw_sum (K := Fops F) vr vi o n x p : RC) - gsum (K := RC) 3 (fun k => (mk Rops (wr k p) (wi k p) : RC) * x ((p + o k) mod n)%Z)%num)%num
    <= 6 * (tau * X) + 20 * (u * X) + 32 * eta.
Proof.
  intros Hn Hx He3 Hc. rewrite gsum3.
  assert (Hc01 : forall k, (0 <= k < 3)%Z -> 0 <= c k <= 1) by (intros k Hk; destruct (He3 k Hk) as [(-> & _)|(-> & _)]; lra).
  assert (T : forall k, (0 <= k < 3)%Z -> let z := x ((p + o k) mod n)%Z in
     Rabs (fst (raw_term (K := Fops F) vr vi o n x p k) - (wr k p * fst z - wi k p * snd z)) <= term_bound u eta tau X (c k) /\
     Rabs (snd (raw_term (K := Fops F) vr vi o n x p k) - (wr k p * snd z + wi k p * fst z)) <= term_bound u eta tau X (c k) /\
     Rabs (wr k p * fst z - wi k p * snd z) <= c k * X /\ Rabs (wr k p * snd z + wi k p * fst z) <= c k * X).
  { intros k Hk z. assert (Hz : modulus z <= X) by (apply Hx; apply Z.mod_pos_bound; auto).
    assert (Hr : Rabs (fst z) <= X) by (eapply Rle_trans; [apply (modulus_cre z)|auto]).
    assert (Hi : Rabs (snd z) <= X) by (eapply Rle_trans; [apply (modulus_cim z)|auto]).
    pose proof (He3 k Hk) as E. destruct (unit_re (wr k p) (wi k p) (fst z) (snd z) (c k) z) as [U1 U2]; auto.
    { destruct z; reflexivity. } { destruct E as [(? & ? & ? & ? & ?)|(? & ? & ?)]; auto. }
    unfold raw_term. fold z. cbn [fst snd Fops osub oadd omul].
    repeat split; auto.
    - pose proof (pair_err u eta top (rnd F) Hu He Hrd tau Ht X HX (vr k p) (vi k p) (wr k p) (wi k p) (c k) (fst z) (snd z) (-1)) as P.
      replace (rnd F (vr k p * fst z) + -1 * rnd F (vi k p * snd z)) with (rnd F (vr k p * fst z) - rnd F (vi k p * snd z)) in P by ring.
      replace (wr k p * fst z + -1 * (wi k p * snd z)) with (wr k p * fst z - wi k p * snd z) in P by ring.
      apply P; auto.
    - pose proof (pair_err u eta top (rnd F) Hu He Hrd tau Ht X HX (vr k p) (vi k p) (wr k p) (wi k p) (c k) (snd z) (fst z) 1) as P.
      replace (rnd F (vr k p * snd z) + 1 * rnd F (vi k p * fst z)) with (rnd F (vr k p * snd z) + rnd F (vi k p * fst z)) in P by ring.
      replace (wr k p * snd z + 1 * (wi k p * fst z)) with (wr k p * snd z + wi k p * fst z) in P by ring.
      apply P; auto. }
  destruct (T 0%Z ltac:(lia)) as (A0 & B0 & C0 & D0). destruct (T 1%Z ltac:(lia)) as (A1 & B1 & C1 & D1). destruct (T 2%Z ltac:(lia)) as (A2 & B2 & C2 & D2). clear T.
  pose proof (sum3_err u eta top (rnd F) Hu He Hrd tau Ht X HX _ _ _ _ _ _ _ _ _ HX0 (Hc01 0%Z ltac:(lia)) (Hc01 1%Z ltac:(lia)) (Hc01 2%Z ltac:(lia)) Hc A0 A1 A2 C0 C1 C2) as SR.
  pose proof (sum3_err u eta top (rnd F) Hu He Hrd tau Ht X HX _ _ _ _ _ _ _ _ _ HX0 (Hc01 0%Z ltac:(lia)) (Hc01 1%Z ltac:(lia)) (Hc01 2%Z ltac:(lia)) Hc B0 B1 B2 D0 D1 D2) as SI.
  set (G := 41 / 10 * (tau * X) + 13 * (u * X) + 13 * eta) in *.
  eapply Rle_trans; [apply (modulus_comp _ G)|].
  - unfold raw_sum, cre, mk. cbn [fst snd Fops o0 oadd]. cbn [Cops osub oadd omul o0 fst snd Rops]. unfold csub, cadd, cmul, cre, cim, mk. cbn [fst snd oadd osub omul o0 Rops].
    match goal with |- Rabs (?a - ?b) <= _ => match type of SR with Rabs (?a' - ?b') <= _ => replace (a - b) with (a' - b') end end; [exact SR|]. unfold Rminus. f_equal. f_equal. ring.
  - unfold raw_sum, cim, mk. cbn [fst snd Fops o0 oadd]. cbn [Cops osub oadd omul o0 fst snd Rops]. unfold csub, cadd, cmul, cre, cim, mk. cbn [fst snd oadd osub omul o0 Rops].
    match goal with |- Rabs (?a - ?b) <= _ => match type of SI with Rabs (?a' - ?b') <= _ => replace (a - b) with (a' - b') end end; [exact SI|]. unfold Rminus. f_equal. f_equal. ring.
  - assert (0 <= tau * X) by (apply Rmult_le_pos; lra). assert (0 <= u * X) by (apply Rmult_le_pos; lra). unfold G. lra.
Qed.
End Row.

(** ** The tables *)
Lemma sin_abs_le x : Rabs (sin x) <= Rabs x.
Proof.
  assert (P : forall y, 0 <= y -> Rabs (sin y) <= y).
  { intros y Hy. destruct (Req_dec y 0) as [->|Hn]; [rewrite sin_0, Rabs_R0; lra|]. pose proof (sin_lt_x y ltac:(lra)).
    destruct (Rle_lt_dec 0 (sin y)); [rewrite Rabs_right by lra; lra|]. rewrite Rabs_left by lra.
    destruct (Rle_lt_dec y PI); [pose proof (sin_ge_0 y Hy r0); lra|]. pose proof PI_bounds. pose proof (SIN_bound y). lra. }
  destruct (Rle_lt_dec 0 x) as [H|H]; [rewrite (Rabs_right x) by lra; auto|].
  rewrite (Rabs_left x) by lra. rewrite <- (Ropp_involutive x) at 1. rewrite sin_neg, Rabs_Ropp. apply P. lra.
Qed.
Lemma cos_lip x y : Rabs (cos x - cos y) <= Rabs (x - y).
Proof.
  rewrite form2. rewrite !Rabs_mult. replace (Rabs (-2)) with 2 by (unfold Rabs; destruct (Rcase_abs _); lra).
  pose proof (sin_abs_le ((x - y) / 2)) as A. assert (B : Rabs (sin ((x + y) / 2)) <= 1) by (apply Rabs_le; apply SIN_bound).
  unfold Rdiv in A. rewrite Rabs_mult in A. rewrite (Rabs_right (/ 2)) in A by lra.
  pose proof (Rabs_pos (sin ((x - y) / 2))). pose proof (Rabs_pos (sin ((x + y) / 2))). pose proof (Rabs_pos (x - y)). unfold Rdiv in *. nra.
Qed.
Lemma sin_lip x y : Rabs (sin x - sin y) <= Rabs (x - y).
Proof.
  rewrite form4. rewrite !Rabs_mult. replace (Rabs 2) with 2 by (unfold Rabs; destruct (Rcase_abs _); lra).
  pose proof (sin_abs_le ((x - y) / 2)) as A. assert (B : Rabs (cos ((x + y) / 2)) <= 1) by (apply Rabs_le; apply COS_bound).
  unfold Rdiv in A. rewrite Rabs_mult in A. rewrite (Rabs_right (/ 2)) in A by lra.
  pose proof (Rabs_pos (sin ((x - y) / 2))). pose proof (Rabs_pos (cos ((x + y) / 2))). pose proof (Rabs_pos (x - y)). unfold Rdiv in *. nra.
Qed.

Section Tables.
Context (F : fpu) (u eta top t : R) (ar : arithmetic u eta top t (rnd F) (dpi F) (lcos F) (lsin F)).
Context (N : Z) (HN : (1 <= N)%Z) (Hsmall : table_error u eta t N <= / 64).

Lemma table_pos : 0 <= table_error u eta t N.
Proof.
  destruct ar. unfold table_error. assert (0 <= IZR N) by (apply IZR_le; lia). assert (0 <= IZR N * eta) by (apply Rmult_le_pos; lra). nra.
Qed.
Lemma f_arg_err k : (0 <= k < 2 * N)%Z -> Rabs (f_arg F N k - PI / IZR N * IZR k) <= 20 * u + 3 * IZR N * eta /\ Rabs (f_arg F N k) <= 7.
Proof.
  intros Hk. destruct ar as [ar_u0 ar_eta0 ar_t0 ar_top0 ar_rnd0 ar_exact0 ar_pi0 _ _]. unfold table_error in Hsmall. unfold f_arg.
  assert (HNR : 1 <= IZR N) by (apply IZR_le; lia). assert (Hk0 : 0 <= IZR k) by (apply IZR_le; lia). assert (Hk1 : IZR k <= 2 * IZR N) by (rewrite <- mult_IZR; apply IZR_le; lia).
  pose proof PI_bounds as HP. assert (HPI : 3 <= PI <= 31416 / 10000) by lra. clear HP.
  set (v := / IZR N). assert (Hv : 0 < v <= 1). { unfold v. split; [apply Rinv_0_lt_compat; lra|]. rewrite <- Rinv_1. apply Rinv_le_contravar; lra. }
  assert (HvN : IZR N * v = 1) by (unfold v; field; lra). unfold Rdiv. fold v.
  assert (Hkv : 0 <= IZR k * v <= 2). { split; [apply Rmult_le_pos; lra|]. replace 2 with (2 * IZR N * v) by nra. apply Rmult_le_compat_r; lra. }
  apply abs_le in ar_pi0.
  assert (E1 : Rabs (dpi F * v - PI * v) <= u * (PI * v)). { rewrite <- Rmult_minus_distr_r, Rabs_mult, (Rabs_right v) by lra. rewrite <- Rmult_assoc. apply Rmult_le_compat_r; [lra|]. apply Rabs_le. lra. }
  assert (HPv : 0 <= PI * v <= PI) by nra.
  set (a := PI * v) in *. assert (Ha : 0 <= u * a) by (apply Rmult_le_pos; lra). assert (Hua : u * (u * a) <= u * a / 1000) by nra.
  assert (E1' := E1). apply abs_le in E1'.
  assert (B1 : Rabs (dpi F * v) <= a + u * a) by (apply Rabs_le; lra).
  pose proof (ar_rnd0 (dpi F * v) ltac:(nra)) as R1. apply abs_le in R1.
  assert (R1' : Rabs (rnd F (dpi F * v) - a) <= 2001 / 1000 * (u * a) + eta). { pose proof (Rmult_le_compat_l u _ _ ltac:(lra) B1). apply Rabs_le. lra. }
  set (r1 := rnd F (dpi F * v)) in *.
  assert (E2 : Rabs (r1 * IZR k - a * IZR k) <= 2001 / 1000 * u * (2 * PI) + 2 * IZR N * eta).
  { rewrite <- Rmult_minus_distr_r, Rabs_mult, (Rabs_right (IZR k)) by lra.
    eapply Rle_trans; [apply Rmult_le_compat_r; [lra|exact R1']|]. unfold a.
    assert (u * PI * (IZR k * v) <= u * PI * 2) by (apply Rmult_le_compat_l; nra). assert (eta * IZR k <= eta * (2 * IZR N)) by (apply Rmult_le_compat_l; lra). lra. }
  assert (Hak : 0 <= a * IZR k <= 2 * PI). { unfold a. replace (PI * v * IZR k) with (PI * (IZR k * v)) by ring. nra. }
  assert (HuP : 0 <= u * (2 * PI) <= 62832 / 10000 * u) by nra.
  assert (Heta : eta <= IZR N * eta) by nra.
  apply abs_le in E2. assert (B2 : Rabs (r1 * IZR k) <= 6.4) by (apply Rabs_le; lra).
  pose proof (ar_rnd0 (r1 * IZR k) ltac:(lra)) as R2. assert (R2' : u * Rabs (r1 * IZR k) <= u * 6.4) by (apply Rmult_le_compat_l; lra). apply abs_le in R2.
  split; apply Rabs_le; lra.
Qed.
Lemma f_cos_err k : (0 <= k < 2 * N)%Z -> Rabs (f_cos F N k - cosN N k) <= table_error u eta t N.
Proof.
  intros Hk. destruct (f_arg_err k Hk) as [A B]. unfold f_cos, cosN, table_error. pose proof (ar_cos _ _ _ _ _ _ _ _ ar _ B) as C.
  pose proof (cos_lip (f_arg F N k) (PI / IZR N * IZR k)) as D. apply abs_le in C. assert (D' : Rabs (cos (f_arg F N k) - cos (PI / IZR N * IZR k)) <= 20 * u + 3 * IZR N * eta) by lra.
  apply abs_le in D'. apply Rabs_le. lra.
Qed.
Lemma f_sin_err k : (0 <= k < 2 * N)%Z -> Rabs (f_sin F N k - sinN N k) <= table_error u eta t N.
Proof.
  intros Hk. destruct (f_arg_err k Hk) as [A B]. unfold f_sin, sinN, table_error. pose proof (ar_sin _ _ _ _ _ _ _ _ ar _ B) as C.
  pose proof (sin_lip (f_arg F N k) (PI / IZR N * IZR k)) as D. apply abs_le in C. assert (D' : Rabs (sin (f_arg F N k) - sin (PI / IZR N * IZR k)) <= 20 * u + 3 * IZR N * eta) by lra.
  apply abs_le in D'. apply Rabs_le. lra.
Qed.
End Tables.
