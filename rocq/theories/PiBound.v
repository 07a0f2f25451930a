(** Bounds on the number pi. *)
From Coq Require Import ZArith Reals Lra Lia List Machin.
Open Scope R_scope.

(** sum of (-1)^n (2/3^(2n+1) + 1/7^(2n+1)) / (2n+1) for n <= k as a fraction *)
Definition pi_term (n : nat) : Z * Z := ((if Nat.even n then 1 else -1) * (2 * 7 ^ Z.of_nat (2 * n + 1) + 3 ^ Z.of_nat (2 * n + 1)), 21 ^ Z.of_nat (2 * n + 1) * Z.of_nat (2 * n + 1))%Z.
Definition frac (x : Z * Z) : R := IZR (fst x) / IZR (snd x).
Definition fadd (x y : Z * Z) : Z * Z := (fst x * snd y + fst y * snd x, snd x * snd y)%Z.
Lemma frac_add x y : (0 < snd x)%Z -> (0 < snd y)%Z -> frac (fadd x y) = frac x + frac y.
Proof.
  intros Hx Hy. unfold frac, fadd. cbn. rewrite plus_IZR, !mult_IZR. apply IZR_lt in Hx, Hy. field. lra.
Qed.
Lemma pi_term_ok n : (0 < snd (pi_term n))%Z /\ frac (pi_term n) = tg_alt PI_2_3_7_tg n.
Proof.
  assert (H : (0 < snd (pi_term n))%Z). { unfold pi_term. cbn [snd]. apply Z.mul_pos_pos; [apply Z.pow_pos_nonneg; lia|lia]. }
  split; [exact H|]. unfold frac, pi_term, tg_alt, PI_2_3_7_tg, Ratan_seq. cbn [fst snd].
  assert (E1 : forall b k, IZR (b ^ Z.of_nat k) = IZR b ^ k) by (intros; symmetry; apply pow_IZR).
  rewrite mult_IZR, plus_IZR, !mult_IZR, !E1.
  assert (E2 : IZR (if Nat.even n then 1 else -1) = (-1) ^ n).
  { clear H. induction n as [|n IH]; [reflexivity|]. rewrite Nat.even_succ, <- Nat.negb_even. cbn [pow]. rewrite <- IH. destruct (Nat.even n); cbn; lra. }
  rewrite E2. rewrite <- INR_IZR_INZ. replace 21 with (3 * 7) by lra. rewrite Rpow_mult_distr. rewrite !pow_inv.
  assert (3 ^ (2 * n + 1) <> 0) by (apply pow_nonzero; lra). assert (7 ^ (2 * n + 1) <> 0) by (apply pow_nonzero; lra).
  assert (INR (2 * n + 1) <> 0) by (apply not_0_INR; lia).
  field. auto.
Qed.
Fixpoint pi_sum (n : nat) : Z * Z := match n with O => pi_term 0 | S m => fadd (pi_sum m) (pi_term n) end.
Lemma pi_sum_ok n : (0 < snd (pi_sum n))%Z /\ frac (pi_sum n) = sum_f_R0 (tg_alt PI_2_3_7_tg) n.
Proof.
  induction n as [|n [IH1 IH2]].
  - apply pi_term_ok.
  - cbn [pi_sum sum_f_R0]. destruct (pi_term_ok (S n)) as [H1 H2]. split.
    + unfold fadd. cbn [snd]. nia.
    + rewrite frac_add, IH2, H2 by auto. reflexivity.
Qed.
Lemma frac_le x a b : (0 < snd x)%Z -> (0 < b)%Z -> (fst x * b <= a * snd x)%Z -> frac x <= IZR a / IZR b.
Proof.
  intros Hx Hb H. unfold frac. apply IZR_le in H. rewrite !mult_IZR in H. apply IZR_lt in Hx, Hb.
  apply Rmult_le_reg_r with (IZR (snd x)); [lra|]. apply Rmult_le_reg_r with (IZR b); [lra|]. field_simplify; lra.
Qed.
Lemma frac_ge x a b : (0 < snd x)%Z -> (0 < b)%Z -> (a * snd x <= fst x * b)%Z -> IZR a / IZR b <= frac x.
Proof.
  intros Hx Hb H. unfold frac. apply IZR_le in H. rewrite !mult_IZR in H. apply IZR_lt in Hx, Hb.
  apply Rmult_le_reg_r with (IZR (snd x)); [lra|]. apply Rmult_le_reg_r with (IZR b); [lra|]. field_simplify; lra.
Qed.
Theorem PI_bounds : IZR 31415926535897932384626433 / IZR (10 ^ 25) < PI < IZR 31415926535897932384626434 / IZR (10 ^ 25).
Proof.
  destruct (PI_2_3_7_ineq 13) as [H1 H2]. destruct (pi_sum_ok (S (2 * 13))) as [P1 E1]. destruct (pi_sum_ok (2 * 13)) as [P2 E2].
  rewrite <- E1 in H1. rewrite <- E2 in H2.
  assert (L : IZR 314159265358979323846264331 / IZR (4 * 10 ^ 26) <= frac (pi_sum (S (2 * 13)))).
  { apply frac_ge; [exact P1|reflexivity|]. apply Z.leb_le. vm_compute. reflexivity. }
  assert (U : frac (pi_sum (2 * 13)) <= IZR 314159265358979323846264339 / IZR (4 * 10 ^ 26)).
  { apply frac_le; [exact P2|reflexivity|]. apply Z.leb_le. vm_compute. reflexivity. }
  change (4 * 10 ^ 26)%Z with 400000000000000000000000000%Z in *. change (10 ^ 25)%Z with 10000000000000000000000000%Z. lra.
Qed.
