(** The Taylor polynomials of cosine. *)
From Coq Require Import ZArith Reals Lra Lia List.
Open Scope R_scope.

Definition cterm (x : R) (n : nat) : R := (-1) ^ n * (x ^ (2 * n) / INR (fact (2 * n))).
Definition sterm (x : R) (n : nat) : R := (-1) ^ n * (x ^ (2 * n + 1) / INR (fact (2 * n + 1))).
Definition ctaylor (n : nat) (x : R) : R := sum_f_R0 (cterm x) n.
Definition staylor (n : nat) (x : R) : R := sum_f_R0 (sterm x) n.

Lemma d_pow_fact c n x : derivable_pt_lim (fun x => c * (x ^ (S n) / INR (fact (S n)))) x (c * (x ^ n / INR (fact n))).
Proof.
  replace (c * (x ^ n / INR (fact n))) with ((c / INR (fact (S n))) * (INR (S n) * x ^ n)).
  2: { rewrite fact_simpl, mult_INR. field. split; [apply INR_fact_neq_0|apply not_0_INR; lia]. }
  assert (E : (fun x => c * (x ^ S n / INR (fact (S n)))) = mult_real_fct (c / INR (fact (S n))) (fun x => x ^ S n)).
  { apply FunctionalExtensionality.functional_extensionality. intros y. unfold mult_real_fct, Rdiv. ring. }
  rewrite E. apply derivable_pt_lim_scal. apply derivable_pt_lim_pow.
Qed.
Lemma d_ext f g x l : (forall y, f y = g y) -> derivable_pt_lim f x l -> derivable_pt_lim g x l.
Proof. intros E. replace g with f; [auto|]. apply FunctionalExtensionality.functional_extensionality. auto. Qed.
Lemma d_staylor n x : derivable_pt_lim (staylor n) x (ctaylor n x).
Proof.
  induction n as [|n IH].
  - apply (d_pow_fact ((-1) ^ 0) 0 x).
  - change (ctaylor (S n) x) with (ctaylor n x + cterm x (S n)).
    apply (d_ext (plus_fct (staylor n) (fun x => sterm x (S n)))); [reflexivity|]. apply derivable_pt_lim_plus; [exact IH|].
    unfold cterm. apply (d_ext (fun x => (-1) ^ S n * (x ^ S (2 * S n) / INR (fact (S (2 * S n)))))).
    { intros y. unfold sterm. replace (2 * S n + 1)%nat with (S (2 * S n)) by lia. reflexivity. }
    apply d_pow_fact.
Qed.
Lemma d_ctaylor n x : derivable_pt_lim (ctaylor (S n)) x (- staylor n x).
Proof.
  induction n as [|n IH].
  - apply (d_ext (plus_fct (fun _ => 1) (fun x => (-1) ^ 1 * (x ^ 2 / INR (fact 2))))).
    { intros y. unfold ctaylor, plus_fct. cbn [sum_f_R0]. unfold cterm. f_equal. cbn. field. }
    replace (- staylor 0 x) with (0 + (-1) ^ 1 * (x ^ 1 / INR (fact 1))) by (unfold staylor, sterm; cbn; field).
    apply derivable_pt_lim_plus; [apply derivable_pt_lim_const|]. apply d_pow_fact.
  - replace (- staylor (S n) x) with (- staylor n x + (-1) ^ S (S n) * (x ^ (2 * S n + 1) / INR (fact (2 * S n + 1)))).
    2: { unfold staylor at 2. cbn [sum_f_R0]. unfold sterm at 2. fold (staylor n x). cbn [pow]. ring. }
    apply (d_ext (plus_fct (ctaylor (S n)) (fun x => cterm x (S (S n))))); [reflexivity|]. apply derivable_pt_lim_plus; [exact IH|].
    apply (d_ext (fun x => (-1) ^ S (S n) * (x ^ S (2 * S n + 1) / INR (fact (S (2 * S n + 1)))))).
    { intros y. unfold cterm. replace (2 * S (S n))%nat with (S (2 * S n + 1)) by lia. reflexivity. }
    apply d_pow_fact.
Qed.
Lemma staylor_0 n : staylor n 0 = 0.
Proof.
  induction n as [|n IH]; unfold staylor in *; cbn [sum_f_R0]; [|rewrite IH]; unfold sterm; rewrite pow_i by lia; unfold Rdiv; ring.
Qed.
Lemma ctaylor_0 n : ctaylor n 0 = 1.
Proof.
  induction n as [|n IH]; unfold ctaylor in *; cbn [sum_f_R0]; [unfold cterm; cbn; field|]. rewrite IH. unfold cterm; rewrite pow_i by lia; unfold Rdiv; ring.
Qed.
Lemma grows f f' x : (forall c, derivable_pt_lim f c (f' c)) -> (forall c, 0 <= c -> 0 <= f' c) -> 0 <= x -> f 0 <= f x.
Proof.
  intros Hd Hp [Hx|<-]; [|lra]. destruct (MVT_cor2 f f' 0 x Hx (fun c _ => Hd c)) as (c & E & Hc). specialize (Hp c ltac:(lra)). nra.
Qed.
Lemma taylor_sides n : forall x, 0 <= x -> 0 <= (-1) ^ n * (ctaylor n x - cos x) /\ 0 <= (-1) ^ n * (staylor n x - sin x).
Proof.
  assert (S1 : forall n, (forall x, 0 <= x -> 0 <= (-1) ^ n * (ctaylor n x - cos x)) -> forall x, 0 <= x -> 0 <= (-1) ^ n * (staylor n x - sin x)).
  { intros m H x Hx. pose proof (grows (fun x => (-1) ^ m * (staylor m x - sin x)) (fun x => (-1) ^ m * (ctaylor m x - cos x)) x) as G.
    cbv beta in G. rewrite staylor_0, sin_0, Rminus_0_r, Rmult_0_r in G. apply G; auto.
    intros c. apply (derivable_pt_lim_scal (staylor m - sin)%F ((-1) ^ m) c (ctaylor m c - cos c)).
    apply derivable_pt_lim_minus; [apply d_staylor|apply derivable_pt_lim_sin]. }
  induction n as [|n IH]; intros x Hx.
  - assert (H : forall x, 0 <= x -> 0 <= (-1) ^ 0 * (ctaylor 0 x - cos x)).
    { intros y Hy. pose proof (COS_bound y). unfold ctaylor, cterm. cbn. lra. }
    split; auto.
  - assert (H : forall x, 0 <= x -> 0 <= (-1) ^ S n * (ctaylor (S n) x - cos x)).
    { intros y Hy. pose proof (grows (fun x => (-1) ^ S n * (ctaylor (S n) x - cos x)) (fun x => (-1) ^ S n * (- staylor n x - - sin x)) y) as G.
      cbv beta in G. rewrite ctaylor_0, cos_0, Rminus_diag_eq, Rmult_0_r in G by reflexivity. apply G; auto.
      - intros c. apply (derivable_pt_lim_scal (ctaylor (S n) - cos)%F ((-1) ^ S n) c (- staylor n c - - sin c)).
        apply derivable_pt_lim_minus; [apply d_ctaylor|apply derivable_pt_lim_cos].
      - intros c Hc. destruct (IH c Hc) as [_ I]. cbn [pow]. nra. }
    split; auto.
Qed.
Lemma pow_m1 n : (-1) ^ n = 1 \/ (-1) ^ n = -1.
Proof. induction n as [|n [IH|IH]]; cbn [pow]; [left; reflexivity|rewrite IH; right; ring|rewrite IH; left; ring]. Qed.
Lemma pow_abs_even x n : Rabs x ^ (2 * n) = x ^ (2 * n).
Proof. rewrite !pow_mult. f_equal. rewrite <- !Rsqr_pow2. symmetry. apply Rsqr_abs. Qed.
Theorem cos_taylor n x : Rabs (cos x - ctaylor n x) <= x ^ (2 * S n) / INR (fact (2 * S n)).
Proof.
  assert (E : forall m, ctaylor m (Rabs x) = ctaylor m x).
  { intros m. unfold ctaylor. apply sum_eq. intros i _. unfold cterm. rewrite pow_abs_even. reflexivity. }
  assert (C : cos (Rabs x) = cos x) by (unfold Rabs; destruct (Rcase_abs x); [apply cos_neg|reflexivity]).
  rewrite <- pow_abs_even, <- C, <- E. set (y := Rabs x). assert (Hy : 0 <= y) by apply Rabs_pos.
  destruct (taylor_sides n y Hy) as [H1 _]. destruct (taylor_sides (S n) y Hy) as [H2 _].
  change (ctaylor (S n) y) with (ctaylor n y + cterm y (S n)) in H2. unfold cterm in H2. set (t := y ^ (2 * S n) / INR (fact (2 * S n))) in *.
  cbn [pow] in H2. apply Rabs_le. destruct (pow_m1 n) as [P|P]; rewrite P in H1, H2; lra.
Qed.
