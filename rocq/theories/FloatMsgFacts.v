(** Errors of messages and products of dense matrices in floating-point arithmetic. *)
From Coq Require Import ZArith List Bool Lia Reals Lra Ring.
From Verif Require Import Base BaseFacts GSum Matrix MatrixFacts MatMulFacts DFT DFTTheory DFTFacts FFTFacts SpecMat Properties_Mat Properties_Msg SpecDFT SpecEnc SlotFacts
  Properties_Plain SpecLin LinTrans LinSlots Properties_DFT SupFacts.
From Verif Require Import Float SpecFloat FloatFacts FloatError.
From Verif Require Import FloatDot FloatMsg SpecFloatMsg.
Import ListNotations.
Open Scope R_scope.
Add Ring RCfmsg : HR.

Section Msg.
Context (F : fpu) (u eta top t : R) (ar : arithmetic u eta top t (rnd F) (dpi F) (lcos F) (lsin F)).
Let Hu : 0 <= u <= / 1024 := ar_u _ _ _ _ _ _ _ _ ar.
Let He : 0 <= eta <= / 1024 := ar_eta _ _ _ _ _ _ _ _ ar.
Let Hr : forall x, Rabs x <= top -> Rabs (rnd F x - x) <= u * Rabs x + eta := ar_rnd _ _ _ _ _ _ _ _ ar.

(** message.h:33-34, 41-42 *)
Lemma fadd_err (x y : RC) : modulus (x + y)%num <= top -> modulus ((oadd (o := Cops (Fops F)) x y : RC) - (x + y))%num <= 3 / 2 * (u * modulus (x + y)%num + eta).
Proof.
  intros Ht. pose proof (modulus_cre (x + y)%num) as A. pose proof (modulus_cim (x + y)%num) as B. pose proof (modulus_nonneg (x + y)%num) as C.
  set (M := modulus (x + y)%num) in *. assert (0 <= u * M) by (apply Rmult_le_pos; lra).
  destruct x as [a b], y as [c d]. unfold cre, cim in *. cbn in A, B. change (car Rops) with R in *.
  eapply Rle_trans; [apply (modulus_comp _ (u * M + eta))|lra]; unfold cre, cim; cbn; apply (rd_err u eta top (rnd F) Hu Hr); lra.
Qed.
Lemma fsub_err (x y : RC) : modulus (x - y)%num <= top -> modulus ((osub (o := Cops (Fops F)) x y : RC) - (x - y))%num <= 3 / 2 * (u * modulus (x - y)%num + eta).
Proof.
  intros Ht. pose proof (modulus_cre (x - y)%num) as A. pose proof (modulus_cim (x - y)%num) as B. pose proof (modulus_nonneg (x - y)%num) as C.
  set (M := modulus (x - y)%num) in *. assert (0 <= u * M) by (apply Rmult_le_pos; lra).
  destruct x as [a b], y as [c d]. unfold cre, cim in *. cbn in A, B. change (car Rops) with R in *.
  eapply Rle_trans; [apply (modulus_comp _ (u * M + eta))|lra]; unfold cre, cim; cbn; apply (rd_err u eta top (rnd F) Hu Hr); lra.
Qed.
(** message.h:49-50 *)
Lemma fmul_err (x y : RC) : 2 * (modulus x * modulus y) + 1 <= top ->
  modulus ((omul (o := Cops (Fops F)) x y : RC) - x * y)%num <= 9 / 2 * (u * (modulus x * modulus y) + eta).
Proof.
  intros Ht. rewrite <- modulus_mul in *. pose proof (modulus_nonneg (x * y)%num) as C. set (Y := modulus (x * y)%num) in *. assert (0 <= u * Y) by (apply Rmult_le_pos; lra).
  assert (Hm : forall a b, Rabs a <= modulus x -> Rabs b <= modulus y -> Rabs (a * b) <= Y).
  { intros a b Ha Hb. eapply Rle_trans; [apply abs_mul_le; [exact Ha|exact Hb]|]. unfold Y. rewrite modulus_mul. lra. }
  pose proof (modulus_cre x) as Ax. pose proof (modulus_cim x) as Bx. pose proof (modulus_cre y) as Ay. pose proof (modulus_cim y) as By.
  pose proof (modulus_cre (x * y)%num) as Axy. pose proof (modulus_cim (x * y)%num) as Bxy. fold Y in Axy, Bxy.
  destruct x as [xr xi], y as [yr yi]. unfold cre, cim in *. cbn [fst snd] in *. cbn in Axy, Bxy. change (car Rops) with R in *.
  eapply Rle_trans; [apply (modulus_comp _ (31 / 10 * (u * Y) + 31 / 10 * eta))|lra]; unfold cre, cim; cbn.
  - pose proof (cross_err u eta top (rnd F) Hu He Hr (xr * yr) (xi * yi) (-1) Y ltac:(auto) C ltac:(auto) ltac:(auto)) as A.
    replace (xr * yr + -1 * (xi * yi)) with (xr * yr - xi * yi) in A by ring. replace (rnd F (xr * yr) + -1 * rnd F (xi * yi)) with (rnd F (xr * yr) - rnd F (xi * yi)) in A by ring.
    apply A; auto.
  - pose proof (cross_err u eta top (rnd F) Hu He Hr (xr * yi) (xi * yr) 1 Y ltac:(auto) C ltac:(auto) ltac:(auto)) as A. rewrite !Rmult_1_l in A. apply A; auto.
Qed.
(** message.h:97-98: a sum after the term x*y has been added *)
Definition fstep (x y c : RC) : RC := oadd (o := Cops (Fops F)) c (omul (o := Cops (Fops F)) x y).
Lemma fstep_err c x y Y : 0 <= Y -> modulus c <= Y -> modulus (x * y : RC)%num <= Y -> 4 * Y + 1 <= top ->
  modulus (fstep x y c - (c + x * y))%num <= 736 / 100 * (u * Y) + 595 / 100 * eta.
Proof.
  intros HY Hc Hxy Ht. assert (0 <= u * Y) by (apply Rmult_le_pos; lra).
  assert (Hm : forall a b, Rabs a <= modulus x -> Rabs b <= modulus y -> Rabs (a * b) <= Y).
  { intros a b Ha Hb. eapply Rle_trans; [apply abs_mul_le; [exact Ha|exact Hb]|]. rewrite <- modulus_mul. exact Hxy. }
  pose proof (modulus_cre x) as Ax. pose proof (modulus_cim x) as Bx. pose proof (modulus_cre y) as Ay. pose proof (modulus_cim y) as By.
  pose proof (modulus_cre c) as Ac. pose proof (modulus_cim c) as Bc. pose proof (modulus_cre (x * y)%num) as Axy. pose proof (modulus_cim (x * y)%num) as Bxy.
  destruct x as [xr xi], y as [yr yi], c as [cr ci]. unfold cre, cim in *. cbn [fst snd] in *. cbn in Axy, Bxy. change (car Rops) with R in *.
  eapply Rle_trans; [apply (modulus_comp _ (52 / 10 * (u * Y) + 42 / 10 * eta))|lra]; unfold cre, cim; cbn.
  - pose proof (cross_acc u eta top (rnd F) Hu He Hr cr (xr * yr) (xi * yi) (-1) Y ltac:(auto) HY ltac:(lra) ltac:(auto) ltac:(auto)) as A.
    replace (xr * yr + -1 * (xi * yi)) with (xr * yr - xi * yi) in A by ring. replace (rnd F (xr * yr) + -1 * rnd F (xi * yi)) with (rnd F (xr * yr) - rnd F (xi * yi)) in A by ring.
    apply A; auto. eapply Rle_trans; [exact Axy|exact Hxy].
  - pose proof (cross_acc u eta top (rnd F) Hu He Hr ci (xr * yi) (xi * yr) 1 Y ltac:(auto) HY ltac:(lra) ltac:(auto) ltac:(auto)) as A. rewrite !Rmult_1_l in A.
    apply A; auto. eapply Rle_trans; [exact Bxy|exact Hxy].
Qed.
(** n terms, some of which (those that are zero) may be left out *)
Lemma dot_err n (use : Z -> bool) (x y : Z -> RC) X : (0 <= n)%Z -> IZR n * u <= / 1024 -> 5 * X + IZR n + 1 <= top ->
  (forall k, (0 <= k < n)%Z -> use k = false -> x k = 0%num) -> gsum (K := Rops) n (fun k => modulus (x k) * modulus (y k)) <= X ->
  modulus ((steps (fun k c => if use k then fstep (x k) (y k) c else c) n 0%num : RC) - gsum (K := RC) n (fun k => x k * y k)%num)%num <= dot_error u eta n X.
Proof.
  intros Hn Hnu Ht Hz HX.
  assert (HX0 : 0 <= X). { eapply Rle_trans; [|exact HX]. apply gsum_nonneg. intros k _. apply Rmult_le_pos; apply modulus_nonneg. }
  assert (Hn0 : 0 <= IZR n) by (apply IZR_le; lia).
  destruct (total_bound u eta Hu He (IZR n) X (736 / 100) (595 / 100) Hn0 Hnu HX0 ltac:(lra) ltac:(lra)) as (T1 & T2 & T3).
  set (Y := 101 / 100 * (X + IZR n * (595 / 100 * eta))) in *.
  assert (Hne : IZR n * eta <= IZR n * / 1024) by (apply Rmult_le_compat_l; lra).
  assert (HY : 4 * Y + 1 <= top) by (unfold Y; lra). assert (HuY : 0 <= u * Y) by (apply Rmult_le_pos; lra).
  assert (HuX : 0 <= u * X) by (apply Rmult_le_pos; lra).
  eapply Rle_trans; [apply (acc_complex n _ (fun k => x k * y k)%num (736 / 100 * (u * Y) + 595 / 100 * eta) Y Hn ltac:(lra))|].
  - assert (E : gsum (K := Rops) n (fun k => modulus (x k * y k)%num) = gsum (K := Rops) n (fun k => modulus (x k) * modulus (y k))) by (apply gsum_ext; intros k _; apply modulus_mul).
    rewrite E. lra.
  - intros k c Hk Hc. assert (Hxy : modulus (x k * y k)%num <= Y).
    { rewrite modulus_mul. apply Rle_trans with X.
      - eapply Rle_trans; [|exact HX]. pose proof (gsum_mono k (k + 1) (fun k => modulus (x k) * modulus (y k)) ltac:(lia)) as G1. pose proof (gsum_mono (k + 1) n (fun k => modulus (x k) * modulus (y k)) ltac:(lia)) as G2.
        rewrite gsum_S in G2 by lia. pose proof (gsum_nonneg k (fun k => modulus (x k) * modulus (y k))) as G3.
        assert (P : forall k, 0 <= modulus (x k) * modulus (y k)) by (intros; apply Rmult_le_pos; apply modulus_nonneg). specialize (G2 ltac:(intros; apply P)). specialize (G3 ltac:(intros; apply P)).
        eapply Rle_trans; [|exact G2]. change (modulus (x k) * modulus (y k) <= gsum (K := Rops) k (fun k => modulus (x k) * modulus (y k)) + modulus (x k) * modulus (y k)). lra.
      - unfold Y. assert (0 <= IZR n * (595 / 100 * eta)) by (apply Rmult_le_pos; lra). lra. }
    destruct (use k) eqn:Eu; [apply fstep_err; auto|]. rewrite (Hz k Hk Eu).
    replace (c - (c + 0%num * y k))%num with (0%num : RC) by ring. rewrite modulus_0. lra.
  - unfold dot_error. apply Rmult_le_compat_l; [exact Hn0|]. lra.
Qed.

(** message.h:54-61 *)
Lemma square_err n (z : Z -> RC) : (0 <= n)%Z -> IZR n * u <= / 1024 ->
  let S := gsum (K := Rops) n (fun i => cre Rops (z i) * cre Rops (z i) + cim Rops (z i) * cim Rops (z i)) in 5 * S + IZR n + 1 <= top ->
  exists s, square_sum (K := Fops F) n (carray n z) = Ok s /\ Rabs (s - S) <= square_error u eta n S /\ (keeps_sign (rnd F) -> 0 <= s) /\ 0 <= S.
Proof.
  intros Hn Hnu S Ht. set (d := fun i => cre Rops (z i) * cre Rops (z i) + cim Rops (z i) * cim Rops (z i)) in *.
  assert (Hd : forall i, 0 <= d i) by (intros i; unfold d; pose proof (Rle_0_sqr (cre Rops (z i))); pose proof (Rle_0_sqr (cim Rops (z i))); unfold Rsqr in *; lra).
  assert (HS : 0 <= S) by (apply gsum_nonneg; intros; apply Hd).
  set (f := fun i c => rnd F (c + rnd F (rnd F (cre Rops (z i) * cre Rops (z i)) + rnd F (cim Rops (z i) * cim Rops (z i))))).
  exists (steps f n 0).
  assert (Hn0 : 0 <= IZR n) by (apply IZR_le; lia).
  destruct (total_bound u eta Hu He (IZR n) S (52 / 10) (42 / 10) Hn0 Hnu HS ltac:(lra) ltac:(lra)) as (T1 & T2 & T3).
  set (Y := 101 / 100 * (S + IZR n * (42 / 10 * eta))) in *.
  assert (Hne : IZR n * eta <= IZR n * / 1024) by (apply Rmult_le_compat_l; lra).
  assert (HY : 4 * Y + 1 <= top) by (unfold Y; lra). assert (HuY : 0 <= u * Y) by (apply Rmult_le_pos; lra).
  assert (HuS : 0 <= u * S) by (apply Rmult_le_pos; lra).
  split; [|split; [|split; [|exact HS]]].
  - unfold square_sum. change (@o0 (Fops F)) with 0. apply for_steps; auto. intros i c Hi. rewrite carray_cvtab. unfold cvtab. cbn [fst snd]. rewrite !grd_gtab by auto. reflexivity.
  - eapply Rle_trans; [apply (acc_real n f d (52 / 10 * (u * Y) + 42 / 10 * eta) Y Hn ltac:(lra))|].
    + assert (E : gsum (K := Rops) n (fun k => Rabs (d k)) = S) by (apply gsum_ext; intros k _; apply Rabs_right; pose proof (Hd k); lra). rewrite E. lra.
    + intros i c Hi Hc. assert (HdY : d i <= Y).
      { apply Rle_trans with S; [|unfold Y; assert (0 <= IZR n * (42 / 10 * eta)) by (apply Rmult_le_pos; lra); lra].
        pose proof (gsum_mono (i + 1) n d ltac:(lia) ltac:(auto)) as G. rewrite gsum_S in G by lia. pose proof (gsum_nonneg i d ltac:(auto)) as G3.
        unfold S. eapply Rle_trans; [|exact G]. change (d i <= gsum (K := Rops) i d + d i). lra. }
      unfold f, d in *. set (a := cre Rops (z i)) in *. set (b := cim Rops (z i)) in *. change (car Rops) with R in *.
      pose proof (Rle_0_sqr a) as Pa. pose proof (Rle_0_sqr b) as Pb. unfold Rsqr in Pa, Pb.
      pose proof (cross_acc u eta top (rnd F) Hu He Hr c (a * a) (b * b) 1 Y ltac:(auto) T3 Hc) as A. rewrite !Rmult_1_l in A.
      apply A; auto; rewrite Rabs_right; lra.
    + unfold square_error. apply Rmult_le_compat_l; [exact Hn0|]. lra.
  - intros Hk. refine (gsum_ind n (fun n => 0 <= steps f n 0) _ _ Hn).
    + rewrite steps_0. lra.
    + intros m Hm IH. rewrite steps_S by lia. unfold f at 1. apply Hk.
      assert (0 <= rnd F (rnd F (cre Rops (z m) * cre Rops (z m)) + rnd F (cim Rops (z m) * cim Rops (z m)))); [|lra]. apply Hk.
      pose proof (Hk _ (Rle_0_sqr (cre Rops (z m)))). pose proof (Hk _ (Rle_0_sqr (cim Rops (z m)))). unfold Rsqr in *. lra.
Qed.

(** roots *)
Lemma sqrt_sum a b : 0 <= a -> 0 <= b -> sqrt (a + b) <= sqrt a + sqrt b.
Proof.
  intros Ha Hb. pose proof (sqrt_pos a). pose proof (sqrt_pos b). rewrite <- (sqrt_Rsqr (sqrt a + sqrt b)) by lra. apply sqrt_le_1_alt. unfold Rsqr.
  pose proof (sqrt_sqrt a Ha). pose proof (sqrt_sqrt b Hb). assert (0 <= sqrt a * sqrt b) by (apply Rmult_le_pos; auto). lra.
Qed.
Lemma root_near s S x e : 0 <= s -> 0 <= S -> 0 <= x <= 1 -> 0 <= e -> Rabs (s - S) <= x * S + e -> Rabs (sqrt s - sqrt S) <= x * sqrt S + sqrt e.
Proof.
  intros Hs HS Hx He0 H. apply abs_le in H. pose proof (sqrt_pos S) as PS. pose proof (sqrt_pos s) as Ps. pose proof (sqrt_pos e) as Pe.
  assert (A : sqrt s <= (1 + x) * sqrt S + sqrt e).
  { apply Rle_trans with (sqrt ((1 + x) * S + e)); [apply sqrt_le_1_alt; lra|]. eapply Rle_trans; [apply sqrt_sum; [apply Rmult_le_pos; lra|lra]|]. apply Rplus_le_compat_r.
    rewrite sqrt_mult by lra. apply Rmult_le_compat_r; auto. rewrite <- (sqrt_Rsqr (1 + x)) at 2 by lra. apply sqrt_le_1_alt. unfold Rsqr. nra. }
  assert (B : (1 - x) * sqrt S <= sqrt s + sqrt e).
  { apply Rle_trans with (sqrt ((1 - x) * S)).
    - rewrite sqrt_mult by lra. apply Rmult_le_compat_r; auto. rewrite <- (sqrt_Rsqr (1 - x)) at 1 by lra. apply sqrt_le_1_alt. unfold Rsqr. nra.
    - apply Rle_trans with (sqrt (s + e)); [apply sqrt_le_1_alt; lra|]. apply sqrt_sum; lra. }
  apply Rabs_le. lra.
Qed.
Lemma f_sqrt_err s S n a b : 0 <= s -> 0 <= S -> 1 <= n -> n * u <= / 1024 -> 0 <= a <= 6 -> 0 <= b <= 5 -> Rabs (s - S) <= n * (a * u * S + b * eta) -> sqrt S + 2 <= top / 2 -> n <= top ->
  exists r, f_sqrt F s = Ok r /\ Rabs (r - sqrt S) <= 8 * n * u * sqrt S + 4 * sqrt (n * eta).
Proof.
  intros Hs HS Hn Hnu Ha Hb H Ht Hntop. unfold f_sqrt. destruct (Rlt_dec s 0) as [L|_]; [lra|]. eexists; split; [reflexivity|].
  assert (Hnu0 : 0 <= n * u) by (apply Rmult_le_pos; lra). assert (Hne : 0 <= n * eta) by (apply Rmult_le_pos; lra).
  assert (Ha1 : a * (n * u) <= 6 * (n * u)) by (apply Rmult_le_compat_r; lra). assert (Ha0 : 0 <= a * (n * u)) by (apply Rmult_le_pos; lra).
  assert (Hb1 : b * (n * eta) <= 5 * (n * eta)) by (apply Rmult_le_compat_r; lra). assert (Hb0 : 0 <= b * (n * eta)) by (apply Rmult_le_pos; lra).
  assert (A : Rabs (sqrt s - sqrt S) <= 6 * (n * u) * sqrt S + sqrt (5 * (n * eta))).
  { apply root_near; auto; [lra|lra|]. eapply Rle_trans; [exact H|]. replace (n * (a * u * S + b * eta)) with (a * (n * u) * S + b * (n * eta)) by ring.
    apply Rplus_le_compat; [apply Rmult_le_compat_r; lra|lra]. }
  rewrite sqrt_mult in A by lra. assert (S5 : sqrt 5 <= 9 / 4). { rewrite <- (sqrt_Rsqr (9 / 4)) by lra. apply sqrt_le_1_alt. unfold Rsqr. lra. }
  set (q := sqrt (n * eta)) in *. assert (Hq : 0 <= q) by apply sqrt_pos.
  assert (Hq1 : q <= top / 8).
  { pose proof (ar_top _ _ _ _ _ _ _ _ ar) as H8. assert (n * eta <= top * / 1024) by (apply Rmult_le_compat; lra).
    apply Rsqr_incr_0_var; [|lra]. unfold Rsqr. pose proof (sqrt_sqrt (n * eta) Hne) as Q. fold q in Q. rewrite Q. nra. }
  assert (Hqe : eta <= q / 8).
  { assert (eta <= n * eta) by nra. assert (E : eta * eta <= (q / 8) * (q / 8)). { pose proof (sqrt_sqrt (n * eta) Hne) as Q. fold q in Q. nra. }
    apply Rsqr_incr_0_var; [exact E|lra]. }
  assert (A2 : sqrt 5 * q <= 9 / 4 * q) by (apply Rmult_le_compat_r; lra).
  set (Y := sqrt S) in *. assert (PY : 0 <= Y) by apply sqrt_pos. assert (HnuY : 0 <= n * u * Y) by (apply Rmult_le_pos; lra). assert (HnuY1 : n * u * Y <= / 1024 * Y) by (apply Rmult_le_compat_r; lra).
  assert (HuY : u * Y <= n * u * Y) by (assert (0 <= u * Y) by (apply Rmult_le_pos; lra); nra).
  pose proof (small_mul u (n * u * Y) Hu HnuY) as F1. pose proof (small_mul u q Hu Hq) as F2.
  eapply Rle_trans; [apply (round_near u eta top (rnd F) Hu Hr _ Y (6 * (n * u) * Y + 9 / 4 * q) Y)|].
  - lra.
  - rewrite Rabs_right; lra.
  - lra.
  - replace (u * (Y + (6 * (n * u) * Y + 9 / 4 * q))) with (u * Y + 6 * (u * (n * u * Y)) + 9 / 4 * (u * q)) by ring. lra.
Qed.
End Msg.
