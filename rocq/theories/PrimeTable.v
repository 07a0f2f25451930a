(** Primality of the moduli of conv.h, by Pocklington certificates checked in the kernel. *)
From Coq Require Import ZArith List Bool Lia Znumtheory.
From Verif Require Import Base NumFermat NumZ Conv.
Import ListNotations.
Open Scope Z_scope.

Fixpoint powm_pos (a : Z) (e : positive) (n : Z) : Z :=
  match e with
  | xH => a mod n
  | xO e => let x := powm_pos a e n in (x * x) mod n
  | xI e => let x := powm_pos a e n in ((x * x) mod n * a) mod n
  end.
Definition powm (a e n : Z) : Z :=
  match e with Zpos e => powm_pos a e n | Z0 => 1 mod n | Zneg _ => 0 end.

Lemma powm_pos_ok a e n : 0 < n -> powm_pos a e n = a ^ Zpos e mod n.
Proof.
  intros Hn. induction e as [e IH|e IH|]; cbn [powm_pos].
  - cbv zeta. rewrite IH. rewrite Pos2Z.inj_xI, Z.pow_add_r, Z.pow_1_r by lia.
    rewrite <- Zmult_mod. rewrite Zmult_mod_idemp_l. f_equal. f_equal.
    rewrite (Z.mul_comm 2), Z.pow_mul_r by lia. ring.
  - cbv zeta. rewrite IH, <- Zmult_mod. f_equal. rewrite Pos2Z.inj_xO, (Z.mul_comm 2), Z.pow_mul_r by lia. ring.
  - rewrite Z.pow_1_r. reflexivity.
Qed.
Lemma powm_ok a e n : 0 < n -> 0 <= e -> powm a e n = a ^ e mod n.
Proof. intros Hn He. destruct e; [reflexivity|apply powm_pos_ok; auto|lia]. Qed.

(** Trial division for the small ones. *)
Fixpoint no_divisor (fuel : nat) (d n : Z) : bool :=
  match fuel with
  | O => false
  | S f => if n <? d * d then true else if n mod d =? 0 then false else no_divisor f (d + 1) n
  end.
Definition small_prime (n : Z) : bool := (1 <? n) && no_divisor 2000 2 n.

Lemma no_divisor_ok f : forall d n, 2 <= d -> no_divisor f d n = true ->
  (forall k, 2 <= k < d -> ~ (k | n)) -> forall k, 2 <= k -> k * k <= n -> ~ (k | n).
Proof.
  induction f as [|f IH]; intros d n Hd H Hk k Hk2 Hkk; [discriminate|]. cbn [no_divisor] in H.
  destruct (Z.ltb_spec n (d * d)).
  - apply Hk. nia.
  - destruct (Z.eqb_spec (n mod d) 0) as [|Hnd]; [discriminate|].
    apply (IH (d + 1) n); auto; [lia|]. intros j Hj. destruct (Z.eq_dec j d) as [->|].
    + intros Hdv. apply Hnd. apply Z.mod_divide; auto. lia.
    + apply Hk. lia.
Qed.
Lemma prime_sqrt n : 1 < n -> (forall r, prime r -> r * r <= n -> ~ (r | n)) -> prime n.
Proof.
  intros Hn H. destruct (prime_div_exists n Hn) as (r & Hr & Hd). pose proof (prime_pos _ Hr) as Hr2.
  destruct (Z_le_gt_dec (r * r) n) as [Hle|Hgt]; [exfalso; apply (H r); auto|].
  destruct Hd as [k E]. assert (Hk : 0 < k < r) by nia.
  destruct (Z.eq_dec k 1) as [->|Hk1]; [rewrite E, Z.mul_1_l; auto|].
  exfalso. destruct (prime_div_exists k ltac:(lia)) as (s & Hs & Hds). pose proof (prime_pos _ Hs).
  pose proof (dvd_pos_le s k ltac:(lia) Hds).
  apply (H s); auto; [nia|]. rewrite E. apply Z.divide_mul_l. auto.
Qed.
Lemma small_prime_ok n : small_prime n = true -> prime n.
Proof.
  unfold small_prime. rewrite andb_true_iff, Z.ltb_lt. intros [Hn H]. apply prime_sqrt; auto.
  intros r Hr Hrr. pose proof (prime_pos _ Hr). apply (no_divisor_ok _ 2 n ltac:(lia) H); lia.
Qed.

(** Pocklington's criterion with one base. *)
Lemma pocklington n F a : 1 < n -> 0 < F -> (F | n - 1) -> n < F * F -> a ^ (n - 1) mod n = 1 ->
  (forall p, prime p -> (p | F) -> Z.gcd (a ^ ((n - 1) / p) - 1) n = 1) -> prime n.
Proof.
  intros Hn HF [R ER] HFn Ha Hg. apply prime_sqrt; auto. intros r Hr Hrr Hd.
  pose proof (prime_pos _ Hr) as Hr2. assert (HR : 0 < R) by nia.
  assert (Ha1 : a ^ (n - 1) mod r = 1).
  { destruct Hd as [k E]. rewrite E in Ha at 2. pose proof (Z.div_mod (a ^ (n - 1)) (k * r) ltac:(nia)) as Hdm. rewrite Ha in Hdm.
    rewrite Hdm. replace (k * r * (a ^ (n - 1) / (k * r)) + 1) with (1 + k * (a ^ (n - 1) / (k * r)) * r) by ring.
    rewrite Z.mod_add by lia. apply Z.mod_small. lia. }
  set (b := a ^ R).
  assert (Hb : forall e, 0 <= e -> b ^ e = a ^ (R * e)) by (intros; unfold b; rewrite <- Z.pow_mul_r by lia; auto).
  assert (Hdiv : (F | r - 1)).
  { apply (order_test r b F); auto; try lia.
    - rewrite Hb by lia. rewrite <- ER. auto.
    - intros p Hp Hpd E. pose proof (prime_pos _ Hp).
      destruct Hpd as [m Em]. assert (Hm : F / p = m) by (rewrite Em; apply Z.div_mul; lia).
      rewrite Hm in E. rewrite Hb in E by nia.
      assert (Hnp : (n - 1) / p = R * m).
      { rewrite ER, Em. replace (R * (m * p)) with (R * m * p) by ring. apply Z.div_mul. lia. }
      specialize (Hg p Hp ltac:(exists m; auto)). rewrite Hnp in Hg.
      assert (Hrd : (r | Z.gcd (a ^ (R * m) - 1) n)).
      { apply Z.gcd_greatest; auto. apply Z.mod_divide; [lia|]. rewrite Zminus_mod, E, (Z.mod_small 1 r) by lia.
        apply Z.mod_0_l. lia. }
      rewrite Hg in Hrd. apply dvd_pos_le in Hrd; lia.
    - apply (fermatZ Hr). intros Hdb.
      assert (Hz : a ^ (n - 1) mod r = 0).
      { rewrite ER, <- Hb by lia. apply Z.mod_divide; [lia|].
        replace F with (Z.succ (F - 1)) by lia. rewrite Z.pow_succ_r by lia. apply Z.divide_mul_l. auto. }
      lia. }
  apply dvd_pos_le in Hdiv; [|lia]. nia.
Qed.

(** Certificates: (n, base, factorisation of the divisor F of n-1). *)
Definition cert := (Z * Z * list (Z * Z))%type.
Definition cert_F (fs : list (Z * Z)) : Z := fold_right (fun '(p, e) acc => p ^ e * acc) 1 fs.
Definition check_cert (known : list Z) (c : cert) : bool :=
  let '(n, a, fs) := c in
  let F := cert_F fs in
  (1 <? n) && (0 <? F) && ((n - 1) mod F =? 0) && (n <? F * F) && (powm a (n - 1) n =? 1) &&
  forallb (fun '(p, e) =>
    (0 <=? e) && (existsb (Z.eqb p) known || small_prime p) &&
    (Z.gcd (powm a ((n - 1) / p) n - 1) n =? 1)) fs.
Fixpoint check_certs (known : list Z) (l : list cert) : bool :=
  match l with
  | [] => true
  | c :: t => check_cert known c && check_certs (fst (fst c) :: known) t
  end.

Lemma dvd_pow_prime p e r : prime p -> 0 <= e -> (p | r ^ e) -> (p | r).
Proof.
  intros Hp He Hd. destruct (Zdivide_dec p r) as [H|H]; auto. exfalso. apply (pow_not_dvd p r e); auto.
Qed.

Lemma dvd_cert_F p fs : prime p -> (forall r e, In (r, e) fs -> prime r /\ 0 <= e) -> (p | cert_F fs) ->
  exists e, In (p, e) fs.
Proof.
  intros Hp. induction fs as [|[r e] fs IH]; intros H Hd.
  - cbn in Hd. pose proof (prime_pos _ Hp). apply dvd_pos_le in Hd; lia.
  - cbn [cert_F fold_right] in Hd. apply prime_mult in Hd; auto. destruct Hd as [Hd|Hd].
    + destruct (H r e ltac:(left; auto)) as [Hr He].
      assert (p = r). { apply prime_dvd_eq; auto. apply (dvd_pow_prime p e r); auto. }
      subst. exists e. left; auto.
    + destruct IH as [e' He']; auto. { intros; apply H; right; auto. } exists e'. right; auto.
Qed.

Lemma gcd_mod_sub x n : 0 < n -> Z.gcd (x mod n - 1) n = Z.gcd (x - 1) n.
Proof.
  intros Hn. rewrite (Z.gcd_comm _ n), (Z.gcd_comm (x - 1) n).
  rewrite <- (Z.gcd_mod (x mod n - 1)), <- (Z.gcd_mod (x - 1)) by lia. rewrite Zminus_mod_idemp_l. reflexivity.
Qed.

Lemma check_cert_ok known n a fs : Forall prime known -> check_cert known (n, a, fs) = true -> prime n.
Proof.
  intros Hk. unfold check_cert. rewrite !andb_true_iff, !Z.ltb_lt, !Z.eqb_eq.
  intros (((((Hn & HF) & Hd) & HFn) & Ha) & Hf). rewrite forallb_forall in Hf.
  assert (Hpr : forall r e, In (r, e) fs -> prime r /\ 0 <= e).
  { intros r e Hin. specialize (Hf _ Hin). cbv beta iota in Hf. rewrite !andb_true_iff, orb_true_iff in Hf.
    destruct Hf as [[He Hr] _]. apply Z.leb_le in He. split; auto. destruct Hr as [Hr|Hr].
    - apply existsb_exists in Hr. destruct Hr as (x & Hx & E). apply Z.eqb_eq in E. subst x.
      rewrite Forall_forall in Hk. auto.
    - apply small_prime_ok. auto. }
  apply (pocklington n (cert_F fs) a); auto.
  - apply Z.mod_divide; auto. lia.
  - rewrite <- powm_ok by lia. auto.
  - intros p Hp Hpd. destruct (dvd_cert_F p fs Hp Hpr Hpd) as [e Hin]. specialize (Hf _ Hin). cbv beta iota in Hf.
    rewrite !andb_true_iff in Hf. destruct Hf as [_ Hg]. apply Z.eqb_eq in Hg. pose proof (prime_pos _ Hp).
    rewrite powm_ok in Hg by (try lia; apply Z.div_pos; lia). rewrite gcd_mod_sub in Hg by lia. auto.
Qed.
Lemma check_certs_ok l : forall known, Forall prime known -> check_certs known l = true ->
  Forall (fun c => prime (fst (fst c))) l.
Proof.
  induction l as [|[[n a] fs] l IH]; intros known Hk H; constructor; cbn [check_certs] in H;
    apply andb_true_iff in H; destruct H as [H1 H2].
  - cbn. eapply check_cert_ok; eauto.
  - apply (IH (n :: known)); auto. constructor; auto. eapply check_cert_ok; eauto.
Qed.

Definition certs : list cert :=
  [(1152921504606584833, 10, [(2, 18); (3, 2); (7, 2); (43, 1)]);
   (1152921504598720513, 5, [(2, 18); (571, 1); (2099, 1)]);
   (25781083, 3, [(116131, 1)]);
   (733007751857, 2, [(25781083, 1)]);
   (1152921504616808449, 2, [(733007751857, 1)]);
   (1152921504618381313, 5, [(2, 20); (3, 7)]);
   (1152921504592429057, 5, [(2, 18); (17, 1); (373, 1)]);
   (36650387593, 3, [(3, 2); (7, 1); (13, 1); (19, 1); (37, 1)]);
   (1099511627791, 2, [(36650387593, 1)]);
   (1152921504622575617, 2, [(1099511627791, 1)]);
   (1152921504581419009, 11, [(2, 18); (3, 1); (31, 1); (47, 1)]);
   (17327423, 2, [(7, 1); (607, 1)]);
   (1282229303, 2, [(17327423, 1)]);
   (2564458607, 2, [(1282229303, 1)]);
   (1152921504580894721, 2, [(2564458607, 1)]);
   (1152921504634109953, 5, [(2, 21); (7, 1); (211, 1)]);
   (1152921504578273281, 7, [(2, 18); (5, 1); (3023, 1)]);
   (1152921504577748993, 3, [(2, 18); (613, 1); (2039, 1)]);
   (1152921504577486849, 17, [(2, 22); (3, 1); (113, 1)]);
   (1152921504643809281, 3, [(2, 18); (4513, 1)]);
   (1152921504568836097, 5, [(2, 18); (9941, 1)]);
   (1152921504565166081, 3, [(2, 18); (31, 1); (647, 1)]);
   (9233929, 3, [(3, 2); (11, 1); (89, 1)]);
   (4398046511269, 2, [(9233929, 1)]);
   (1152921504650100737, 2, [(4398046511269, 1)]);
   (1152921504563331073, 5, [(2, 19); (2711, 1)]);
   (1152921504556515329, 3, [(2, 24); (242819, 1)]);
   (1152921504555466753, 5, [(2, 20); (1811, 1)]);
   (13818689, 6, [(2, 6); (13, 1); (17, 1)]);
   (17522097653, 2, [(13818689, 1)]);
   (1152921504554156033, 2, [(17522097653, 1)]);
   (1152921504552583169, 3, [(2, 18); (13, 1); (383, 1)]);
   (60559133, 2, [(369263, 1)]);
   (121118267, 2, [(60559133, 1)]);
   (366503875943, 2, [(121118267, 1)]);
   (733007751887, 2, [(366503875943, 1)]);
   (1152921504663994369, 2, [(733007751887, 1)]);
   (1152921504666615809, 3, [(2, 20); (73, 1); (349, 1)]);
   (1152921504542883841, 7, [(2, 20); (130051, 1)]);
   (1152921504672645121, 11, [(2, 18); (3, 2); (5, 1); (7, 1); (17, 1)]);
   (1152921504538951681, 11, [(2, 18); (13, 1); (17, 1); (23, 1)]);
   (8323391, 2, [(832339, 1)]);
   (1466015503613, 2, [(8323391, 1)]);
   (1152921504537378817, 2, [(1466015503613, 1)]);
   (1152921504531873793, 5, [(2, 19); (2531, 1)]);
   (4358817157, 2, [(263023, 1)]);
   (1152921504687849473, 2, [(4358817157, 1)]);
   (1152921504690208769, 3, [(2, 19); (36061, 1)]);
   (1152921504690995201, 3, [(2, 18); (17989, 1)]);
   (1152921504521650177, 7, [(2, 18); (3, 2); (659, 1)]);
   (1152921504694927361, 3, [(2, 22); (337, 1)]);
   (1152921504695451649, 13, [(2, 19); (30203, 1)]);
   (167149837, 2, [(2, 2); (3, 2); (7, 1); (107, 1)]);
   (14709185657, 2, [(167149837, 1)]);
   (1152921504695713793, 2, [(14709185657, 1)]);
   (74543161211, 10, [(5, 1); (7, 1); (28279, 1)]);
   (1152921504697286657, 2, [(74543161211, 1)]);
   (1152921504509853697, 5, [(2, 19); (6947, 1)]);
   (1152921504508280833, 5, [(2, 21); (29, 2)]);
   (1152921504506970113, 3, [(2, 18); (208459, 1)]);
   (1152921504717733889, 3, [(2, 18); (149519, 1)]);
   (1152921504495697921, 7, [(2, 21); (6833, 1)]);
   (1152921504722190337, 5, [(2, 21); (7, 2); (71, 1)]);
   (1152921504491241473, 3, [(2, 18); (13, 1); (353, 1)]);
   (1152921504488620033, 5, [(2, 18); (113, 1); (283, 1)]);
   (1152921504730316801, 3, [(2, 18); (5, 2); (863, 1)]);
   (1152921504730841089, 7, [(2, 18); (457, 1); (983, 1)]);
   (1152921504479444993, 3, [(2, 19); (3557, 1)]);
   (3956501, 2, [(5, 3); (41, 1)]);
   (879609302321, 2, [(3956501, 1)]);
   (1152921504738181121, 2, [(879609302321, 1)]);
   (1152921504741851137, 5, [(2, 18); (107927, 1)]);
   (2970509, 2, [(20071, 1)]);
   (9666036287, 2, [(2970509, 1)]);
   (1152921504470794241, 2, [(9666036287, 1)]);
   (1152921504468172801, 11, [(2, 18); (3, 1); (5, 2); (149, 1)]);
   (1466015503879, 5, [(3, 4); (137, 1); (1637, 1)]);
   (1152921504746569729, 2, [(1466015503879, 1)]);
   (1152921504462929921, 3, [(2, 18); (103, 1); (239, 1)]);
   (1152921504462667777, 5, [(2, 19); (29, 1); (1327, 1)]);
   (1152921504756006913, 5, [(2, 18); (34439, 1)]);
   (1152921504455589889, 13, [(2, 18); (19, 1); (2377, 1)]);
   (1152921504760201217, 3, [(2, 18); (107, 1); (151, 1)]);
   (1152921504760987649, 3, [(2, 20); (284527, 1)]);
   (1152921504447987713, 3, [(2, 19); (11299, 1)]);
   (1152921504767016961, 43, [(2, 18); (3, 4); (5, 1); (41, 1)]);
   (3479467177, 5, [(2, 3); (3, 2); (3359, 1)]);
   (1152921504770424833, 2, [(3479467177, 1)]);
   (2394313, 5, [(2, 3); (3, 1); (67, 1)]);
   (2854021097, 2, [(2394313, 1)]);
   (1152921504442482689, 2, [(2854021097, 1)]);
   (1152921504436191233, 3, [(2, 18); (342059, 1)]);
   (4398046511779, 3, [(3, 2); (271, 1); (5051, 1)]);
   (1152921504783794177, 2, [(4398046511779, 1)]);
   (603298561, 2, [(157109, 1)]);
   (6032985611, 2, [(603298561, 1)]);
   (1152921504427278337, 2, [(6032985611, 1)]);
   (2790497, 3, [(2, 5); (29, 1); (31, 1)]);
   (146601550393, 2, [(2790497, 1)]);
   (1152921504786677761, 2, [(146601550393, 1)]);
   (1152921504790085633, 3, [(2, 18); (59, 1); (109, 1)]);
   (97734366929, 2, [(2790497, 1)]);
   (1152921504790609921, 2, [(97734366929, 1)]);
   (1152921504419414017, 11, [(2, 18); (3, 1); (7, 1); (281, 1)]);
   (5638521169, 11, [(2, 4); (7, 1); (19, 1); (37, 1)]);
   (1152921504794542081, 2, [(5638521169, 1)]);
   (1152921504795590657, 3, [(2, 22); (4721, 1)]);
   (4398046511839, 2, [(7, 2); (19, 1); (41, 1); (89, 1)]);
   (1152921504799522817, 2, [(4398046511839, 1)]);
   (1152921504801882113, 3, [(2, 21); (17, 1); (191, 1)]);
   (1152921504409190401, 11, [(2, 19); (85639, 1)]);
   (1152921504403947521, 3, [(2, 19); (5, 1); (11, 1); (151, 1)]);
   (1152921504396869633, 3, [(2, 18); (5647, 1)]);
   (1152921504395821057, 5, [(2, 18); (19, 1); (1861, 1)]);
   (1152921504829145089, 7, [(2, 22); (19, 1); (167, 1)]);
   (293203100797, 2, [(739, 1); (2851, 1)]);
   (1152921504829931521, 2, [(293203100797, 1)]);
   (1152921504836485121, 3, [(2, 20); (5, 1); (11, 1); (53, 1)]);
   (1152921504839630849, 3, [(2, 21); (7, 1); (127, 1)]);
   (1152921504373014529, 7, [(2, 20); (21191, 1)]);
   (1152921504840941569, 7, [(2, 18); (103, 1); (397, 1)]);
   (1152921504843563009, 3, [(2, 18); (88817, 1)]);
   (1152921504369344513, 3, [(2, 19); (61, 2)]);
   (1152921504368558081, 3, [(2, 18); (5, 1); (13, 1); (71, 1)]);
   (22554084677, 2, [(5638521169, 1)]);
   (1152921504845660161, 2, [(22554084677, 1)]);
   (1152921504846446593, 5, [(2, 19); (17, 1); (23, 1); (67, 1)]);
   (1152921504364625921, 11, [(2, 20); (5, 1); (223, 1)]);
   (1152921504362790913, 5, [(2, 18); (6991, 1)]);
   (1152921504361218049, 7, [(2, 18); (3, 2); (859, 1)]);
   (1152921504859815937, 5, [(2, 18); (3, 1); (7, 1); (17, 2)]);
   (14386241, 3, [(2, 6); (61, 1)]);
   (2848475719, 2, [(14386241, 1)]);
   (2199023255069, 2, [(2848475719, 1)]);
   (1152921504353615873, 2, [(2199023255069, 1)]);
   (183251938003, 2, [(796339, 1)]);
   (1152921504860602369, 2, [(183251938003, 1)]);
   (1152921504862437377, 3, [(2, 18); (11, 1); (1483, 1)]);
   (73738289, 6, [(2, 4); (13, 1); (241, 1)]);
   (4571773919, 2, [(73738289, 1)]);
   (1152921504337887233, 2, [(4571773919, 1)]);
   (1152921504337625089, 13, [(2, 18); (31, 1); (239, 1)]);
   (1152921504876331009, 11, [(2, 20); (3, 1); (7, 2); (13, 1)]);
   (1152921504885768193, 5, [(2, 21); (3, 1); (373, 1)]);
   (1152921504321372161, 3, [(2, 18); (5, 1); (31, 1); (61, 1)]);
   (51741723673, 3, [(3, 5); (29, 1); (569, 1)]);
   (1152921504895467521, 2, [(51741723673, 1)]);
   (1152921504314032129, 7, [(2, 18); (13, 1); (331, 1)])].

Lemma certs_ok : check_certs [] certs = true.
Proof. vm_compute. reflexivity. Qed.

Definition certified (p : Z) : bool := existsb (fun c => fst (fst c) =? p) certs.
Lemma certified_prime p : certified p = true -> prime p.
Proof.
  intros H. apply existsb_exists in H. destruct H as (c & Hc & E). apply Z.eqb_eq in E. subst p.
  pose proof (check_certs_ok certs [] (Forall_nil _) certs_ok) as Hall. rewrite Forall_forall in Hall. auto.
Qed.

Lemma Q_primes_prime : Forall prime Q_primes.
Proof.
  apply Forall_forall. intros p Hp. apply certified_prime.
  assert (H : forallb certified Q_primes = true) by (vm_compute; reflexivity).
  rewrite forallb_forall in H. auto.
Qed.
