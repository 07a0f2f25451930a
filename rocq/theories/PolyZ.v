(** Polynomials with integer coefficients in the powers of t and in the Chebyshev polynomials, for computation. *)
From Coq Require Import ZArith Reals Lra Lia List.
Import ListNotations.
Open Scope R_scope.

(** T_n(t) *)
Fixpoint rcheb (t : R) (n : nat) : R :=
  match n with
  | O => 1
  | S m => match m with O => t | S l => 2 * t * rcheb t m - rcheb t l end
  end.
Lemma rcheb_SS t n : rcheb t (S (S n)) = 2 * t * rcheb t (S n) - rcheb t n.
Proof. reflexivity. Qed.
Lemma rcheb_cos a n : rcheb (cos a) n = cos (INR n * a) /\ rcheb (cos a) (S n) = cos (INR (S n) * a).
Proof.
  induction n as [|n [IH1 IH2]].
  - cbn [rcheb INR]. rewrite Rmult_0_l, cos_0, Rmult_1_l. split; reflexivity.
  - split; [auto|]. rewrite rcheb_SS, IH1, IH2. replace (INR (S (S n)) * a) with (INR (S n) * a + a) by (rewrite (S_INR (S n)); ring).
    replace (INR n * a) with (INR (S n) * a - a) by (rewrite (S_INR n); ring). rewrite cos_plus, cos_minus. ring.
Qed.
Lemma rcheb_bound t n : -1 <= t <= 1 -> Rabs (rcheb t n) <= 1.
Proof. intros H. rewrite <- (cos_acos t H), (proj1 (rcheb_cos (acos t) n)). apply Rabs_le. apply COS_bound. Qed.

(** sums of c_n t^n and of c_n T_(i+n)(t) *)
Fixpoint evM (l : list Z) (t : R) : R := match l with [] => 0 | c :: l => IZR c + t * evM l t end.
Fixpoint evT (i : nat) (l : list Z) (t : R) : R := match l with [] => 0 | c :: l => IZR c * rcheb t i + evT (S i) l t end.

Fixpoint ladd (a b : list Z) : list Z :=
  match a, b with
  | [], _ => b
  | _, [] => a
  | x :: a, y :: b => (x + y)%Z :: ladd a b
  end.
Definition lscale (c : Z) (a : list Z) : list Z := map (Z.mul c) a.
Fixpoint lmul (a b : list Z) : list Z := match a with [] => [] | x :: a => ladd (lscale x b) (0%Z :: lmul a b) end.
Lemma evM_add a t : forall b, evM (ladd a b) t = evM a t + evM b t.
Proof. induction a as [|x a IH]; intros [|y b]; cbn [ladd evM]; try lra. rewrite IH, plus_IZR. ring. Qed.
Lemma evM_scale c a t : evM (lscale c a) t = IZR c * evM a t.
Proof. induction a as [|x a IH]; cbn [lscale map evM]; [ring|]. fold (lscale c a). rewrite IH, mult_IZR. ring. Qed.
Lemma evM_mul a b t : evM (lmul a b) t = evM a t * evM b t.
Proof. induction a as [|x a IH]; cbn [lmul evM]; [ring|]. rewrite evM_add, evM_scale. cbn [evM]. rewrite IH. ring. Qed.
Lemma evT_add a t : forall i b, evT i (ladd a b) t = evT i a t + evT i b t.
Proof. induction a as [|x a IH]; intros i [|y b]; cbn [ladd evT]; try lra. rewrite IH, plus_IZR. ring. Qed.

(** 2t times a sum of c_n T_n *)
Definition mul2t (l : list Z) : list Z := match l with [] => [] | c :: l => ladd (0%Z :: (2 * c)%Z :: l) l end.
Lemma evT_shift l t : forall i, evT (S (S i)) l t + evT i l t = 2 * t * evT (S i) l t.
Proof. induction l as [|c l IH]; intros i; cbn [evT]; [ring|]. rewrite rcheb_SS. specialize (IH (S i)). rewrite !Rmult_plus_distr_l, <- IH. ring. Qed.
Lemma evT_mul2t l t : evT 0 (mul2t l) t = 2 * t * evT 0 l t.
Proof.
  destruct l as [|c l]; [cbn; ring|]. unfold mul2t. rewrite evT_add. cbn [evT]. rewrite mult_IZR, Rmult_plus_distr_l, <- evT_shift. cbn [rcheb]. ring.
Qed.
(** 2^(length l - 1) p(t) in Chebyshev polynomials.  The accumulator [k] is 2^(length l). *)
Fixpoint tocheb (l : list Z) : list Z * Z :=
  match l with
  | [] => ([], 1%Z)
  | c :: l => let '(r, k) := tocheb l in (ladd [(c * (2 * k))%Z] (mul2t r), (2 * k)%Z)
  end.
Lemma tocheb_ok l t : evT 0 (fst (tocheb l)) t = IZR (snd (tocheb l)) * evM l t.
Proof.
  induction l as [|c l IH]; [cbn; ring|]. cbn [tocheb]. destruct (tocheb l) as [r k]. cbn [fst snd] in *.
  rewrite evT_add, evT_mul2t, IH. cbn [evT evM rcheb]. rewrite !mult_IZR. ring.
Qed.
Definition labs (l : list Z) : Z := fold_right (fun c s => (Z.abs c + s)%Z) 0%Z l.
Lemma evT_bound l t : -1 <= t <= 1 -> forall i, Rabs (evT i l t) <= IZR (labs l).
Proof.
  intros Ht. induction l as [|c l IH]; intros i; cbn [evT labs fold_right]; [rewrite Rabs_R0; lra|]. fold (labs l). rewrite plus_IZR, abs_IZR.
  eapply Rle_trans; [apply Rabs_triang|]. apply Rplus_le_compat; [|apply IH]. rewrite Rabs_mult. pose proof (rcheb_bound t i Ht). pose proof (Rabs_pos (IZR c)). nra.
Qed.

(** T_(2^k) and sums of u_n times products of these *)
Fixpoint chebZ (k : nat) : list Z := match k with O => [0; 1]%Z | S k => let p := chebZ k in ladd [(-1)%Z] (lscale 2 (lmul p p)) end.
Lemma rcheb_double t n : -1 <= t <= 1 -> rcheb t (2 * n) = 2 * (rcheb t n * rcheb t n) - 1.
Proof.
  intros Ht. rewrite <- (cos_acos t Ht). set (a := acos t). rewrite (proj1 (rcheb_cos a (2 * n))), (proj1 (rcheb_cos a n)). rewrite mult_INR.
  replace (INR 2 * INR n * a) with (2 * (INR n * a)) by (cbn; ring). rewrite cos_2a_cos. ring.
Qed.
Lemma chebZ_ok t k : -1 <= t <= 1 -> evM (chebZ k) t = rcheb t (2 ^ k).
Proof.
  intros Ht. induction k as [|k IH]; [cbn; ring|]. cbn [chebZ]. cbv zeta. rewrite evM_add, evM_scale, evM_mul, IH.
  replace (2 ^ S k)%nat with (2 * 2 ^ k)%nat by (cbn; lia). rewrite rcheb_double by auto. cbn [evM]. lra.
Qed.
Fixpoint rprod (t : R) (k : nat) (u : nat -> R) : R :=
  match k with O => u O | S k => rprod t k u + rcheb t (2 ^ k) * rprod t k (fun n => u (2 ^ k + n)%nat) end.
Fixpoint prodZ (k : nat) (l : list Z) : list Z :=
  match k with O => firstn 1 l | S k => ladd (prodZ k (firstn (2 ^ k) l)) (lmul (chebZ k) (prodZ k (skipn (2 ^ k) l))) end.
Lemma rprod_ext t k : forall u v, (forall n, (n < 2 ^ k)%nat -> u n = v n) -> rprod t k u = rprod t k v.
Proof.
  induction k as [|k IH]; intros u v H; [apply H; cbn; lia|]. cbn [rprod]. assert (2 ^ S k = 2 ^ k + 2 ^ k)%nat by (cbn; lia). f_equal; [|f_equal]; apply IH; intros n Hn; apply H; lia.
Qed.
Lemma prodZ_ok t k : -1 <= t <= 1 -> forall l, length l = (2 ^ k)%nat -> evM (prodZ k l) t = rprod t k (fun n => IZR (nth n l 0%Z)).
Proof.
  intros Ht. induction k as [|k IH]; intros l Hl.
  - destruct l as [|c [|]]; cbn in Hl; try lia. cbn. ring.
  - assert (E : (2 ^ S k = 2 ^ k + 2 ^ k)%nat) by (cbn; lia). rewrite E in Hl. cbn [prodZ rprod]. rewrite evM_add, evM_mul, chebZ_ok by auto.
    rewrite !IH by (rewrite ?firstn_length, ?skipn_length; lia). f_equal; [|f_equal]; apply rprod_ext; intros n Hn; f_equal.
    + rewrite <- (firstn_skipn (2 ^ k) l) at 2. rewrite app_nth1; [reflexivity|]. rewrite firstn_length. lia.
    + rewrite <- (firstn_skipn (2 ^ k) l) at 2. rewrite app_nth2 by (rewrite firstn_length; lia). f_equal. rewrite firstn_length. lia.
Qed.
Lemma rprod_scale t k c : forall u, rprod t k (fun n => c * u n) = c * rprod t k u.
Proof. induction k as [|k IH]; intros u; cbn [rprod]; [ring|]. rewrite IH. rewrite (IH (fun n => u (2 ^ k + n)%nat)). ring. Qed.
