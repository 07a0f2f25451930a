(** Facts about the word-level modular arithmetic (Mod.v) and the loops with large bounds. *)
From Coq Require Import ZArith List Bool Lia Znumtheory.
From Verif Require Import Base BaseFacts Mod.
Open Scope Z_scope.

Ltac wdlia := unfold is_word, W in *; lia.

Lemma W_sq : W * W = 2 ^ 128. Proof. reflexivity. Qed.

Lemma mod_ok al ah q : is_word al -> is_word ah -> 0 < q < W ->
  mod_ al ah q = Ok ((ah * W + al) mod q).
Proof.
  intros Ha Hh Hq. unfold mod_. change (2 ^ 64) with W. change (2 ^ 128) with (W * W).
  destruct (Z.eqb_spec q 0); [lia|]. f_equal.
  assert (Hb : 0 <= ah * W < W * W) by (unfold is_word, W in *; nia).
  rewrite (Z.mod_small (ah * W)) by lia.
  rewrite (Z.mod_small (ah * W + al)) by (unfold is_word, W in *; nia).
  apply Z.mod_small. pose proof (Z.mod_pos_bound (ah * W + al) q ltac:(lia)). lia.
Qed.

Lemma mod_undef al ah : mod_ al ah 0 = Undef.
Proof. reflexivity. Qed.

Lemma mod_asm_ok al ah q : is_word al -> is_word ah -> 0 < q < W ->
  mod_asm al ah q = Ok ((ah * W + al) mod q).
Proof.
  intros Ha Hh Hq. unfold mod_asm, x86_div. change (2 ^ 64) with W.
  destruct (Z.eqb_spec q 0); [lia|]. cbn [bind]. rewrite !Z.mul_0_l, !Z.add_0_l.
  pose proof (Z.div_le_upper_bound al q al ltac:(lia) ltac:(unfold is_word in *; nia)).
  pose proof (Z.div_le_upper_bound ah q ah ltac:(lia) ltac:(unfold is_word in *; nia)).
  destruct (Z.ltb_spec (al / q) W); [|wdlia]. cbn [bind].
  destruct (Z.ltb_spec (ah / q) W); [|wdlia]. cbn [bind].
  pose proof (Z.mod_pos_bound al q ltac:(lia)). pose proof (Z.mod_pos_bound ah q ltac:(lia)).
  assert (Hlt : (ah mod q * W + al mod q) / q < W).
  { apply Z.div_lt_upper_bound; nia. }
  destruct (Z.ltb_spec ((ah mod q * W + al mod q) / q) W); [|lia]. cbn [bind]. f_equal.
  rewrite Z.add_mod_idemp_r by lia.
  rewrite Z.add_mod by lia. rewrite Z.mul_mod_idemp_l by lia. rewrite <- Z.add_mod by lia. reflexivity.
Qed.

Lemma mul__ok a b : is_word a -> is_word b ->
  exists lo hi, mul_ a b = (lo, hi) /\ is_word lo /\ is_word hi /\ hi * W + lo = a * b.
Proof.
  intros Ha Hb. unfold mul_. change (2 ^ 64) with W. change (2 ^ 128) with (W * W).
  assert (0 <= a * b < W * W) by (unfold is_word in *; nia).
  rewrite (Z.mod_small (a * b)) by lia.
  assert (Hd : 0 <= a * b / W < W).
  { split; [apply Z.div_pos; wdlia|apply Z.div_lt_upper_bound; wdlia]. }
  rewrite (Z.mod_small (a * b / W)) by lia.
  do 2 eexists. split; [reflexivity|]. pose proof (Z.mod_pos_bound (a * b) W ltac:(wdlia)).
  repeat split; try lia. pose proof (Z.div_mod (a * b) W ltac:(wdlia)). lia.
Qed.

Lemma mul_win_eq a b : is_word a -> is_word b -> mul_win a b = mul_ a b.
Proof.
  intros Ha Hb. unfold mul_win, mul_lo_asm, mul_hi_asm, x86_mul, mul_.
  change (2 ^ 64) with W. change (2 ^ 128) with (W * W).
  assert (0 <= a * b < W * W) by (unfold is_word in *; nia).
  rewrite (Z.mod_small (a * b) (W * W)) by lia. f_equal.
  rewrite Z.mod_small; auto. split; [apply Z.div_pos; wdlia|apply Z.div_lt_upper_bound; wdlia].
Qed.

Lemma mul_mod_ok a b q : is_word a -> is_word b -> 0 < q < W -> mul_mod a b q = Ok (a * b mod q).
Proof.
  intros Ha Hb Hq. unfold mul_mod. destruct (mul__ok a b Ha Hb) as (lo & hi & -> & Hl & Hh & E).
  rewrite mod_ok by auto. rewrite E. reflexivity.
Qed.

Lemma add_mod_ok a b q : is_word a -> is_word b -> 0 < q < W -> add_mod a b q = Ok ((a + b) mod q).
Proof.
  intros Ha Hb Hq. unfold add_mod, wadd, wrap.
  assert (Hm := Z.mod_pos_bound (a + b) W ltac:(wdlia)).
  rewrite mod_ok; auto; [|destruct (_ <? _); wdlia]. f_equal. f_equal.
  unfold is_word in *. destruct (Z_lt_le_dec (a + b) W) as [Hs|Hs].
  - rewrite (Z.mod_small (a + b)) by lia. destruct (Z.ltb_spec (a + b) a); lia.
  - replace ((a + b) mod W) with (a + b - W).
    + destruct (Z.ltb_spec (a + b - W) a); lia.
    + symmetry. replace (a + b) with (a + b - W + 1 * W) by lia. rewrite Z.mod_add by wdlia.
      rewrite Z.mod_small; lia.
Qed.

Lemma sub_mod_ok a b q : is_word a -> is_word b -> 0 < q < W -> sub_mod a b q = Ok ((a - b) mod q).
Proof.
  intros Ha Hb Hq. unfold sub_mod, wmod. destruct (Z.eqb_spec q 0); [lia|]. cbn [bind].
  pose proof (Z.mod_pos_bound b q ltac:(lia)). unfold wsub, wrap.
  rewrite (Z.mod_small (q - b mod q) W) by wdlia.
  rewrite add_mod_ok; auto; [|wdlia]. f_equal.
  replace (a + (q - b mod q)) with (a - b mod q + 1 * q) by lia. rewrite Z.mod_add by lia.
  rewrite Zminus_mod_idemp_r. reflexivity.
Qed.

Lemma add_mod_undef a b : add_mod a b 0 = Undef. Proof. reflexivity. Qed.
Lemma sub_mod_undef a b : sub_mod a b 0 = Undef. Proof. reflexivity. Qed.
Lemma mul_mod_undef a b : mul_mod a b 0 = Undef. Proof. reflexivity. Qed.

Lemma pow_mod_rec_S f a n q : pow_mod_rec (S f) a n q =
  if n =? 0 then Ok 1 else
  r <- pow_mod_rec f a (n / 2) q ;; r <- mul_mod r r q ;;
  if n mod 2 =? 1 then mul_mod a r q else Ok r.
Proof. reflexivity. Qed.

Lemma pow_mod_rec_ok q a : is_word a -> 1 < q < W -> forall f n, 0 <= n < 2 ^ Z.of_nat f ->
  pow_mod_rec (S f) a n q = Ok (a ^ n mod q).
Proof.
  intros Ha Hq. induction f as [|f IH]; intros n Hn.
  - replace n with 0 by (simpl in Hn; lia). simpl. rewrite Z.mod_small by lia. reflexivity.
  - rewrite pow_mod_rec_S. destruct (Z.eqb_spec n 0) as [->|Hz].
    + rewrite Z.pow_0_r, Z.mod_small by lia. reflexivity.
    + rewrite Nat2Z.inj_succ, Z.pow_succ_r in Hn by lia.
      assert (Hn2 : 0 <= n / 2) by (apply Z.div_pos; lia).
      assert (Hb : n / 2 < 2 ^ Z.of_nat f) by (apply Z.div_lt_upper_bound; lia).
      rewrite IH by lia. cbn [bind].
      pose proof (Z.mod_pos_bound (a ^ (n / 2)) q ltac:(lia)).
      rewrite mul_mod_ok by wdlia. cbn [bind]. rewrite <- Z.mul_mod by lia.
      rewrite <- Z.pow_add_r by lia.
      pose proof (Z.div_mod n 2 ltac:(lia)) as E. pose proof (Z.mod_pos_bound n 2 ltac:(lia)).
      destruct (Z.eqb_spec (n mod 2) 1).
      * pose proof (Z.mod_pos_bound (a ^ (n / 2 + n / 2)) q ltac:(lia)).
        rewrite mul_mod_ok by wdlia. rewrite Z.mul_mod_idemp_r by lia.
        rewrite <- Z.pow_succ_r by lia. do 3 f_equal. lia.
      * do 3 f_equal. lia.
Qed.

Lemma pow_mod_ok a n q : is_word a -> is_word n -> 1 < q < W -> pow_mod a n q = Ok (a ^ n mod q).
Proof. intros. apply pow_mod_rec_ok; auto. split; [wdlia|]. unfold is_word, W in *. simpl Z.of_nat. lia. Qed.

(** *** Loops with large bounds *)

Section Wloop.
  Context {St : Type} (cond : St -> res bool) (body : St -> res St).
  Let step := fun s => b <- cond s ;; if (b : bool) then s' <- body s ;; Ok (inl s') else Ok (@inr St St s).

  Lemma wloop_run (P : St -> Prop) (mu : St -> Z) :
    (forall s, P s -> 0 <= mu s) ->
    (forall s, P s -> cond s = Ok false \/
       (cond s = Ok true /\ exists s', body s = Ok s' /\ P s' /\ mu s' < mu s)) ->
    forall k s, P s ->
      (exists s', wloop k step s = Ok (inr s') /\ P s' /\ cond s' = Ok false) \/
      (exists s', wloop k step s = Ok (inl s') /\ P s' /\ mu s' + 2 ^ Z.of_nat k <= mu s).
  Proof.
    intros Hmu Hs. induction k as [|k IH]; intros s HP.
    - cbn [wloop]. unfold step. destruct (Hs s HP) as [E|[E (s' & E' & HP' & Hlt)]]; rewrite E; cbn [bind].
      + left. eauto.
      + rewrite E'. right. exists s'. simpl. repeat split; auto. lia.
    - cbn [wloop]. destruct (IH s HP) as [(s' & -> & HP' & Hc)|(s' & -> & HP' & Hle)]; cbn [bind].
      + left. eauto.
      + rewrite Nat2Z.inj_succ, Z.pow_succ_r by lia.
        destruct (IH s' HP') as [(s2 & -> & ?)|(s2 & -> & HP2 & ?)]; [left; eauto|].
        right. exists s2. repeat split; auto. lia.
  Qed.

  Lemma whileK_run (P : St -> Prop) (mu : St -> Z) k s :
    (forall s, P s -> 0 <= mu s) ->
    (forall s, P s -> cond s = Ok false \/
       (cond s = Ok true /\ exists s', body s = Ok s' /\ P s' /\ mu s' < mu s)) ->
    P s -> mu s < 2 ^ Z.of_nat k ->
    exists s', whileK k cond body s = Ok s' /\ P s' /\ cond s' = Ok false.
  Proof.
    intros Hmu Hs HP Hlt. unfold whileK.
    destruct (wloop_run P mu Hmu Hs k s HP) as [(s' & E & HP' & Hc)|(s' & E & HP' & Hle)].
    - fold step. rewrite E. cbn [bind]. eauto.
    - pose proof (Hmu s' HP'). lia.
  Qed.

  Lemma wloop_forever (P : St -> Prop) :
    (forall s, P s -> cond s = Ok true /\ exists s', body s = Ok s' /\ P s') ->
    forall k s, P s -> exists s', wloop k step s = Ok (inl s') /\ P s'.
  Proof.
    intros Hs. induction k as [|k IH]; intros s HP; cbn [wloop].
    - unfold step. destruct (Hs s HP) as [-> (s' & -> & HP')]. cbn [bind]. eauto.
    - destruct (IH s HP) as (s' & -> & HP'). cbn [bind]. auto.
  Qed.

  Lemma whileK_forever (P : St -> Prop) k s :
    (forall s, P s -> cond s = Ok true /\ exists s', body s = Ok s' /\ P s') ->
    P s -> whileK k cond body s = Diverge.
  Proof.
    intros Hs HP. unfold whileK. fold step.
    destruct (wloop_forever P Hs k s HP) as (s' & -> & _). reflexivity.
  Qed.

  Lemma whileK_closed (st : nat -> St) m k s :
    st O = s ->
    (forall i, (i < m)%nat -> cond (st i) = Ok true /\ body (st i) = Ok (st (S i))) ->
    cond (st m) = Ok false -> Z.of_nat m < 2 ^ Z.of_nat k ->
    whileK k cond body s = Ok (st m).
  Proof.
    intros H0 Hs Hm Hk.
    assert (G : forall k i, (i <= m)%nat ->
       (wloop k step (st i) = Ok (inr (st m)) /\ Z.of_nat (m - i) < 2 ^ Z.of_nat k) \/
       (exists j, wloop k step (st i) = Ok (inl (st j)) /\ (j <= m)%nat /\ Z.of_nat j = Z.of_nat i + 2 ^ Z.of_nat k)).
    { clear k Hk. induction k as [|k IH]; intros i Hi.
      - cbn [wloop]. unfold step. destruct (Nat.eq_dec i m) as [->|].
        + rewrite Hm. cbn [bind]. left. split; auto. rewrite Nat.sub_diag. simpl. lia.
        + destruct (Hs i ltac:(lia)) as [-> ->]. cbn [bind]. right. exists (S i). simpl. split; auto. lia.
      - cbn [wloop]. rewrite Nat2Z.inj_succ, Z.pow_succ_r by lia.
        destruct (IH i Hi) as [[-> ?]|(j & -> & Hj & Ej)]; cbn [bind].
        + left. split; auto. lia.
        + destruct (IH j Hj) as [[-> ?]|(j' & -> & Hj' & Ej')].
          * left. split; auto. lia.
          * right. exists j'. repeat split; auto. lia. }
    unfold whileK. fold step. rewrite <- H0.
    destruct (G k O ltac:(lia)) as [[-> _]|(j & -> & Hj & Ej)]; [reflexivity|lia].
  Qed.
End Wloop.

Lemma while_big_run {St} (P : St -> Prop) (mu : St -> Z) cond body s :
  (forall s, P s -> 0 <= mu s) ->
  (forall s, P s -> cond s = Ok false \/
     (cond s = Ok true /\ exists s', body s = Ok s' /\ P s' /\ mu s' < mu s)) ->
  P s -> mu s < 2 ^ 65 ->
  exists s', while_big cond body s = Ok s' /\ P s' /\ cond s' = Ok false.
Proof. intros. apply whileK_run with mu; auto. Qed.

Lemma while_big_forever {St} (P : St -> Prop) cond body s :
  (forall s, P s -> cond s = Ok true /\ exists s', body s = Ok s' /\ P s') ->
  P s -> while_big cond body s = Diverge.
Proof. intros. apply whileK_forever with P; auto. Qed.

Lemma while_big_closed {St} (st : nat -> St) m cond body s :
  st O = s ->
  (forall i, (i < m)%nat -> cond (st i) = Ok true /\ body (st i) = Ok (st (S i))) ->
  cond (st m) = Ok false -> Z.of_nat m < 2 ^ 65 ->
  while_big cond body s = Ok (st m).
Proof. intros. apply whileK_closed; auto. Qed.

Global Opaque while_big.
