(** Numbers for the bound on the fraction of ciphertexts. *)
From Coq Require Import ZArith List Bool Lia Reals Lra.
From Verif Require Import SpecTail Tail.
Open Scope Z_scope.

(** ** Numbers: bounds of the exponential function by repeated squaring *)
Lemma exp_up y b c : (exp y <= b -> b * b <= c -> exp (2 * y) <= c)%R.
Proof. intros H Hc. replace (2 * y)%R with (y + y)%R by ring. rewrite exp_plus. pose proof (exp_pos y). nra. Qed.
Lemma exp_dn y b c : (0 <= b <= exp y -> 0 <= c <= b * b -> 0 <= c <= exp (2 * y))%R.
Proof. intros H Hc. replace (2 * y)%R with (y + y)%R by ring. rewrite exp_plus. pose proof (exp_pos y). nra. Qed.
Lemma sq_up (x b c : R) n : (0 <= x ^ n <= b -> b * b <= c -> 0 <= x ^ (2 * n) <= c)%R.
Proof. intros H Hc. replace (2 * n)%nat with (n + n)%nat by lia. rewrite pow_add. nra. Qed.
Lemma exp_inv y b : (0 < b -> b <= exp (- y) -> exp y <= / b)%R.
Proof. intros Hb H. rewrite <- (Ropp_involutive y), exp_Ropp. apply Rinv_le_contravar; auto. Qed.
Lemma exp_ge y : (1 + y <= exp y)%R.
Proof. destruct (Req_dec y 0) as [-> |]; [rewrite exp_0; lra|]. apply Rlt_le, exp_ineq1; auto. Qed.
Lemma exp_1_up : (exp 1 <= (27196103040335 / 10000000000000))%R.
Proof.
  assert (H : (exp (/ 1024) <= (10009775171066 / 10000000000000))%R) by (eapply Rle_trans; [apply (exp_inv _ (1023 / 1024)%R); [lra|]; eapply Rle_trans; [|apply exp_ge]; lra|lra]).
  apply (exp_up _ _ (10019559897529 / 10000000000000)%R) in H; [|lra].
  apply (exp_up _ _ (10039158054018 / 10000000000000)%R) in H; [|lra].
  apply (exp_up _ _ (10078469443356 / 10000000000000)%R) in H; [|lra].
  apply (exp_up _ _ (10157554632067 / 10000000000000)%R) in H; [|lra].
  apply (exp_up _ _ (10317591610343 / 10000000000000)%R) in H; [|lra].
  apply (exp_up _ _ (10645269663783 / 10000000000000)%R) in H; [|lra].
  apply (exp_up _ _ (11332176621466 / 10000000000000)%R) in H; [|lra].
  apply (exp_up _ _ (12841822698011 / 10000000000000)%R) in H; [|lra].
  apply (exp_up _ _ (16491241020716 / 10000000000000)%R) in H; [|lra].
  apply (exp_up _ _ (27196103040335 / 10000000000000)%R) in H; [|lra].
  match type of H with (exp ?x <= _)%R => replace x with 1%R in H by lra end. exact H.
Qed.
Lemma exp_m1_dn : ((36769973940910 / 100000000000000) <= exp (- 1))%R.
Proof.
  assert (H : (0 <= (99902343750000 / 100000000000000) <= exp (- / 1024))%R) by (split; [lra|]; eapply Rle_trans; [|apply exp_ge]; lra).
  apply (exp_dn _ _ (99804782867431 / 100000000000000)%R) in H; [|lra].
  apply (exp_dn _ _ (99609946832150 / 100000000000000)%R) in H; [|lra].
  apply (exp_dn _ _ (99221415079037 / 100000000000000)%R) in H; [|lra].
  apply (exp_dn _ _ (98448892102865 / 100000000000000)%R) in H; [|lra].
  apply (exp_dn _ _ (96921843562815 / 100000000000000)%R) in H; [|lra].
  apply (exp_dn _ _ (93938437596147 / 100000000000000)%R) in H; [|lra].
  apply (exp_dn _ _ (88244300580052 / 100000000000000)%R) in H; [|lra].
  apply (exp_dn _ _ (77870565848625 / 100000000000000)%R) in H; [|lra].
  apply (exp_dn _ _ (60638250255850 / 100000000000000)%R) in H; [|lra].
  apply (exp_dn _ _ (36769973940910 / 100000000000000)%R) in H; [|lra].
  match type of H with (_ <= _ <= exp ?x)%R => replace x with (- 1)%R in H by lra end. exact (proj2 H).
Qed.
Lemma exp_m46_up : (exp (- (2 * (23 + / 4))) <= (64933320536805 / 10000000000000000000000000000000000))%R.
Proof.
  assert (H : (exp (- (93 / 131072)) <= (99929096938970 / 100000000000000))%R) by (eapply Rle_trans; [apply (exp_inv _ (131165 / 131072)%R); [lra|]; eapply Rle_trans; [|apply exp_ge]; lra|lra]).
  apply (exp_up _ _ (99858244150381 / 100000000000000)%R) in H; [|lra].
  apply (exp_up _ _ (99716689247972 / 100000000000000)%R) in H; [|lra].
  apply (exp_up _ _ (99434181145767 / 100000000000000)%R) in H; [|lra].
  apply (exp_up _ _ (98871563801293 / 100000000000000)%R) in H; [|lra].
  apply (exp_up _ _ (97755861285132 / 100000000000000)%R) in H; [|lra].
  apply (exp_up _ _ (95562084155980 / 100000000000000)%R) in H; [|lra].
  apply (exp_up _ _ (91321119282347 / 100000000000000)%R) in H; [|lra].
  apply (exp_up _ _ (83395468269807 / 100000000000000)%R) in H; [|lra].
  apply (exp_up _ _ (69548041279404 / 100000000000000)%R) in H; [|lra].
  apply (exp_up _ _ (48369300458017 / 100000000000000)%R) in H; [|lra].
  apply (exp_up _ _ (23395892267980 / 100000000000000)%R) in H; [|lra].
  apply (exp_up _ _ (54736777501493 / 1000000000000000)%R) in H; [|lra].
  apply (exp_up _ _ (29961148112480 / 10000000000000000)%R) in H; [|lra].
  apply (exp_up _ _ (89767039621797 / 10000000000000000000)%R) in H; [|lra].
  apply (exp_up _ _ (80581214024613 / 1000000000000000000000000)%R) in H; [|lra].
  apply (exp_up _ _ (64933320536805 / 10000000000000000000000000000000000)%R) in H; [|lra].
  match type of H with (exp ?x <= _)%R => replace x with (- (2 * (23 + / 4)))%R in H by lra end. exact H.
Qed.
Lemma pow_s x : (0 <= x <= (11759575252732 / 10000000000000) -> 0 <= x ^ 128 <= (10235978378832 / 10000))%R.
Proof.
  intros H.
  assert (H0 : (0 <= x ^ 1 <= (11759575252732 / 10000000000000))%R) by (rewrite pow_1; lra).
  apply (sq_up _ _ (13828761012467 / 10000000000000)%R) in H0; [|lra].
  apply (sq_up _ _ (19123463113993 / 10000000000000)%R) in H0; [|lra].
  apply (sq_up _ _ (36570684147226 / 10000000000000)%R) in H0; [|lra].
  apply (sq_up _ _ (13374149389962 / 1000000000000)%R) in H0; [|lra].
  apply (sq_up _ _ (17886787190503 / 100000000000)%R) in H0; [|lra].
  apply (sq_up _ _ (31993715599835 / 1000000000)%R) in H0; [|lra].
  apply (sq_up _ _ (10235978378832 / 10000)%R) in H0; [|lra].
  exact H0.
Qed.
(** Keys with at most 128 nonzero coefficients, moduli of at least 20 bits *)
Lemma tail_128 h p : (h <= 128)%nat -> 2 ^ 19 <= p -> (0 <= tail_bound h p 23 <= 7 / IZR (10 ^ 12))%R.
Proof.
  intros Hh Hp. unfold tail_bound. change (10 ^ 12) with 1000000000000. pose proof exp_1_up as U. pose proof exp_m1_dn as L. pose proof exp_m46_up as T.
  assert (HL1 : (exp (- 1) <= / 2)%R) by (apply (exp_inv (- 1) 2); [lra|]; replace (- -1)%R with 1%R by lra; pose proof (exp_ge 1); lra).
  assert (HU1 : (5 / 2 <= exp 1)%R).
  { assert (H' : (0 <= 9 / 8 <= exp (/ 8))%R) by (split; [lra|]; pose proof (exp_ge (/ 8)); lra).
    apply (exp_dn _ _ (81 / 64)%R) in H'; [|lra]. apply (exp_dn _ _ (8 / 5)%R) in H'; [|lra]. apply (exp_dn _ _ (5 / 2)%R) in H'; [|lra].
    replace (2 * (2 * (2 * / 8)))%R with 1%R in H' by lra. lra. }
  apply IZR_le in Hp. change (2 ^ 19) with 524288 in Hp.
  assert (Hi : (0 < / IZR p <= / 524288)%R) by (split; [apply Rinv_0_lt_compat; lra|apply Rinv_le_contravar; lra]).
  assert (HE : (1 <= exp (/ IZR p) <= 524288 / 524287)%R).
  { split; [pose proof (exp_ge (/ IZR p)); lra|]. apply Rle_trans with (/ (524287 / 524288))%R; [|lra]. apply exp_inv; [lra|]. pose proof (exp_ge (- / IZR p)). lra. }
  set (S := ((exp 1 - exp (- 1)) / 2)%R) in *. assert (HS : (1 <= S <= 11759552823122 / 10000000000000)%R) by (unfold S; lra).
  set (x := (S * exp (/ IZR p))%R) in *.
  assert (Hx : (1 <= x <= 11759575252732 / 10000000000000)%R).
  { unfold x. split; [nra|]. apply Rle_trans with (11759552823122 / 10000000000000 * (524288 / 524287))%R; [apply Rmult_le_compat; lra|lra]. }
  assert (Hm : (1 <= x ^ h <= x ^ 128)%R) by (split; [apply pow_R1_Rle; lra|apply Rle_pow; [lra|auto]]).
  pose proof (pow_s x ltac:(lra)) as Hs. pose proof (exp_pos (- (2 * (23 + / 4)))) as Ht. split; [apply Rmult_le_pos; lra|].
  eapply Rle_trans; [apply Rmult_le_compat; [lra|lra|exact T|eapply Rle_trans; [apply Hm|apply Hs]]|]. lra.
Qed.
