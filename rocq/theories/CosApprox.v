(** The polynomial of EvalMod is close to cos(3 pi t) on [-1,1]. *)
From Coq Require Import ZArith Reals Lra Lia List Bool.
From Verif Require Import PiBound CosTaylor PolyZ.
Import ListNotations.
Open Scope R_scope.

(** 10^17 times the numbers in bootstrap.h:145-176 *)
Definition cos_u17 : list Z :=
  [-18121145350892778; 176; -51003675488366396; -206; -62436800964507644; -28; 17069002507116071; 187;
   64387933774156236; 155; -60946403046665876; -439; 16023104261940782; -53; -5094267475677791; 128;
   145283705186850; 268; -24484541895481; -37; 1620811709676; -323; -171679432516; 197;
   3753839882; 263; -274617457; 504; 8565582; 1545; -460528; -2388]%Z.

(** Bounds on 10^30 (3 pi)^(2m) / (2m)! *)
Fixpoint zfact (n : nat) : Z := match n with O => 1 | S m => Z.of_nat n * zfact m end%Z.
Lemma zfact_INR n : IZR (zfact n) = INR (fact n).
Proof. induction n as [|n IH]; [reflexivity|]. cbn [zfact]. rewrite mult_IZR, IH, fact_simpl, mult_INR. f_equal. symmetry. apply INR_IZR_INZ. Qed.
Lemma zfact_pos n : (0 < zfact n)%Z.
Proof. induction n as [|n IH]; [reflexivity|]. cbn [zfact]. lia. Qed.
Definition piA : Z := 31415926535897932384626433%Z.
Definition piB2 : Z := 100000000000000000000000000000000000000000000000000%Z.
Definition S30 : Z := (10 ^ 30)%Z.
Definition E30 : Z := (10 ^ 10)%Z.
Definition tlo : list Z :=
  [1000000000000000000000000000000; 44413219804902113784755207144770; 328755682239758225672986087964849;
   973406558494995742493097031875678; 1544004265784698314999270106123586; 1523871129688940229683916273381154;
   1025454900563930268500801543509240; 500480812074284346928553167450914; 185233035956592487630934302800803;
   53769905497186136151217878700262; 12568919114396538638628982276053; 2416563494968524184271767285264;
   388867266936737419920649008847; 53141068927362656355419527043; 6243825330524898035848056780; 637490544432225030025466356;
   57082676760917596062691429; 4519118484910536577968536; 318585083483695043481076; 20127154109992088210040; 1146040666069509730184;
   59116557500001811233; 2775429875641347816; 119097369198020598; 4689270954235166; 170012752338930]%Z.
Definition thi : list Z :=
  [1000000000000000000000000000000; 44413219804902113784755209972204; 328755682239758225672986129823328;
   973406558494995742493097217782653; 1544004265784698314999270499301071; 1523871129688940229683916758444427;
   1025454900563930268500801935204178; 500480812074284346928553390482111; 185233035956592487630934397139219;
   53769905497186136151217909508151; 12568919114396538638628990277677; 2416563494968524184271768977541;
   388867266936737419920649305921; 53141068927362656355419571024; 6243825330524898035848062346; 637490544432225030025466966;
   57082676760917596062691488; 4519118484910536577968542; 318585083483695043481078; 20127154109992088210041; 1146040666069509730185;
   59116557500001811234; 2775429875641347817; 119097369198020599; 4689270954235167; 170012752338931]%Z.
(** every number follows from the one before, for m = 0, 1, ... *)
Fixpoint lo_check (m : Z) (c : Z) (l : list Z) : bool :=
  match l with [] => true | d :: l => (0 <=? d)%Z && (d * ((2 * m + 1) * (2 * m + 2)) * piB2 <=? c * (9 * (piA * piA)))%Z && lo_check (m + 1)%Z d l end.
Fixpoint hi_check (m : Z) (c : Z) (l : list Z) : bool :=
  match l with [] => true | d :: l => (c * (9 * ((piA + 1) * (piA + 1))) <=? d * ((2 * m + 1) * (2 * m + 2)) * piB2)%Z && hi_check (m + 1)%Z d l end.
Fixpoint near_check (l h : list Z) : bool :=
  match l, h with [], [] => true | a :: l, b :: h => (b <=? a + E30)%Z && near_check l h | _, _ => false end.
Definition texact (m : nat) : R := IZR S30 * ((3 * PI) ^ (2 * m) / INR (fact (2 * m))).
Lemma texact_S m : texact (S m) * ((2 * INR m + 1) * (2 * INR m + 2)) = texact m * (9 * (PI * PI)).
Proof.
  unfold texact. replace (2 * S m)%nat with (S (S (2 * m))) by lia. rewrite !fact_simpl, !mult_INR, !S_INR, mult_INR. change (INR 2) with 2. cbn [pow].
  pose proof (pos_INR m). pose proof (INR_fact_neq_0 (2 * m)). field. repeat split; lra.
Qed.
Lemma texact_pos m : 0 <= texact m.
Proof.
  unfold texact. apply Rmult_le_pos; [apply IZR_le; discriminate|]. apply Rmult_le_pos; [apply pow_le; pose proof PI_RGT_0; lra|]. apply Rlt_le, Rinv_0_lt_compat, lt_0_INR, lt_O_fact.
Qed.
Lemma PI2_bounds : IZR (piA * piA) <= PI * PI * IZR piB2 <= IZR ((piA + 1) * (piA + 1)).
Proof.
  pose proof PI_bounds as [P1 P2]. fold piA in P1. change 31415926535897932384626434%Z with (piA + 1)%Z in P2. set (B := (10 ^ 25)%Z) in *.
  assert (HB : 0 < IZR B) by (apply IZR_lt; reflexivity). replace (IZR piB2) with (IZR B * IZR B) by (rewrite <- mult_IZR; reflexivity).
  assert (H1 : IZR piA <= PI * IZR B) by (apply Rmult_lt_compat_r with (r := IZR B) in P1; [|auto]; unfold Rdiv in P1; rewrite Rmult_assoc, Rinv_l, Rmult_1_r in P1; lra).
  assert (H2 : PI * IZR B <= IZR (piA + 1)) by (apply Rmult_lt_compat_r with (r := IZR B) in P2; [|auto]; unfold Rdiv in P2; rewrite Rmult_assoc, Rinv_l, Rmult_1_r in P2; lra).
  assert (H3 : 0 <= IZR piA) by (apply IZR_le; discriminate). rewrite !mult_IZR. replace (PI * PI * (IZR B * IZR B)) with ((PI * IZR B) * (PI * IZR B)) by ring.
  split; apply Rmult_le_compat; lra.
Qed.
Lemma lo_ok l : forall m c, 0 <= IZR c <= texact m -> lo_check (Z.of_nat m) c l = true -> forall i, (i < length l)%nat -> 0 <= IZR (nth i l 0%Z) <= texact (S m + i).
Proof.
  induction l as [|d l IH]; intros m c Hc H i Hi; [cbn in Hi; lia|]. cbn [lo_check] in H. apply andb_prop in H. destruct H as [H H3]. apply andb_prop in H. destruct H as [H1 H2].
  apply Z.leb_le in H1, H2. apply IZR_le in H1, H2. pose proof (texact_S m) as E. pose proof PI2_bounds as [P _]. pose proof (pos_INR m) as Hm.
  rewrite !mult_IZR, !plus_IZR, !mult_IZR, <- INR_IZR_INZ in H2.
  assert (HB : 0 < IZR piB2) by (apply IZR_lt; reflexivity).
  assert (G : 0 <= IZR d <= texact (S m)).
  { split; [exact H1|]. set (k := (2 * INR m + 1) * (2 * INR m + 2)) in *. assert (Hk : 0 < k) by (unfold k; nra).
    apply Rmult_le_reg_r with (k * IZR piB2); [apply Rmult_lt_0_compat; auto|]. rewrite <- !Rmult_assoc, E. eapply Rle_trans; [exact H2|].
    replace (texact m * (9 * (PI * PI)) * IZR piB2) with (texact m * (9 * (PI * PI * IZR piB2))) by ring. rewrite mult_IZR in P.
    apply Rmult_le_compat; try lra. apply Rmult_le_pos; [lra|]. apply Rle_0_sqr. }
  destruct i as [|i]; [rewrite Nat.add_0_r; exact G|]. cbn [nth]. replace (S m + S i)%nat with (S (S m) + i)%nat by lia.
  apply (IH (S m) d G); [|cbn in Hi; lia]. replace (Z.of_nat (S m)) with (Z.of_nat m + 1)%Z by lia. exact H3.
Qed.
Lemma hi_ok l : forall m c, texact m <= IZR c -> hi_check (Z.of_nat m) c l = true -> forall i, (i < length l)%nat -> texact (S m + i) <= IZR (nth i l 0%Z).
Proof.
  induction l as [|d l IH]; intros m c Hc H i Hi; [cbn in Hi; lia|]. cbn [hi_check] in H. apply andb_prop in H. destruct H as [H2 H3].
  apply Z.leb_le in H2. apply IZR_le in H2. pose proof (texact_S m) as E. pose proof PI2_bounds as [_ P]. pose proof (pos_INR m) as Hm. pose proof (texact_pos m) as Hp.
  rewrite !mult_IZR, (plus_IZR (2 * _)), (plus_IZR (2 * _)), !mult_IZR, <- INR_IZR_INZ in H2.
  assert (HB : 0 < IZR piB2) by (apply IZR_lt; reflexivity).
  assert (G : texact (S m) <= IZR d).
  { set (k := (2 * INR m + 1) * (2 * INR m + 2)) in *. assert (Hk : 0 < k) by (unfold k; nra).
    apply Rmult_le_reg_r with (k * IZR piB2); [apply Rmult_lt_0_compat; auto|]. rewrite <- !Rmult_assoc, E. eapply Rle_trans; [|exact H2].
    replace (texact m * (9 * (PI * PI)) * IZR piB2) with (texact m * (9 * (PI * PI * IZR piB2))) by ring. rewrite mult_IZR in P.
    apply Rmult_le_compat; try lra. pose proof (Rle_0_sqr PI) as S0. unfold Rsqr in S0. apply Rmult_le_pos; [lra|]. apply Rmult_le_pos; lra. }
  destruct i as [|i]; [rewrite Nat.add_0_r; exact G|]. cbn [nth]. replace (S m + S i)%nat with (S (S m) + i)%nat by lia.
  apply (IH (S m) d G); [|cbn in Hi; lia]. replace (Z.of_nat (S m)) with (Z.of_nat m + 1)%Z by lia. exact H3.
Qed.
Lemma near_ok l : forall h, near_check l h = true -> length l = length h /\ forall i, (i < length l)%nat -> (nth i h 0 <= nth i l 0 + E30)%Z.
Proof.
  induction l as [|a l IH]; intros [|b h] H; try discriminate; [split; [reflexivity|cbn; lia]|]. cbn [near_check] in H. apply andb_prop in H. destruct H as [H1 H2].
  destruct (IH h H2) as [L G]. split; [cbn; congruence|]. intros [|i] Hi; cbn [nth]; [apply Z.leb_le; exact H1|]. apply G. cbn in Hi. lia.
Qed.
Definition tay (m : nat) : Z := ((if Nat.even m then 1 else -1) * nth m tlo 0)%Z.
Lemma tay_checks : lo_check 0 (hd 0%Z tlo) (tl tlo) && hi_check 0 (hd 0%Z thi) (tl thi) && near_check tlo thi = true.
Proof. vm_compute. reflexivity. Qed.
Lemma tay_near m : (m < 26)%nat -> Rabs (IZR (tay m) - IZR S30 * ((-1) ^ m * ((3 * PI) ^ (2 * m) / INR (fact (2 * m))))) <= IZR E30.
Proof.
  intros Hm. pose proof tay_checks as H. apply andb_prop in H. destruct H as [H H3]. apply andb_prop in H. destruct H as [H1 H2].
  destruct (near_ok _ _ H3) as [_ HN]. specialize (HN m Hm). apply IZR_le in HN. rewrite plus_IZR in HN.
  assert (T0 : texact 0 = IZR S30) by (unfold texact; change (fact (2 * 0)) with 1%nat; change (2 * 0)%nat with 0%nat; change (INR 1) with 1; rewrite pow_O; field).
  assert (L : IZR (nth m tlo 0%Z) <= texact m <= IZR (nth m thi 0%Z)).
  { destruct m as [|m]; [rewrite T0; split; apply Rle_refl|].
    pose proof (lo_ok (tl tlo) 0 (hd 0%Z tlo) ltac:(rewrite T0; split; [apply IZR_le; discriminate|apply Rle_refl]) H1 m ltac:(change (length (tl tlo)) with 25%nat; lia)) as [_ A].
    pose proof (hi_ok (tl thi) 0 (hd 0%Z thi) ltac:(rewrite T0; apply Rle_refl) H2 m ltac:(change (length (tl thi)) with 25%nat; lia)) as B. split; [exact A|exact B]. }
  replace (IZR S30 * ((-1) ^ m * ((3 * PI) ^ (2 * m) / INR (fact (2 * m))))) with ((-1) ^ m * texact m) by (unfold texact; ring).
  unfold tay. rewrite mult_IZR. assert (E2 : IZR (if Nat.even m then 1 else -1) = (-1) ^ m).
  { clear. induction m as [|n IH]; [reflexivity|]. rewrite Nat.even_succ, <- Nat.negb_even. cbn [pow]. rewrite <- IH. destruct (Nat.even n); cbn; lra. }
  rewrite E2. apply Rabs_le. destruct (pow_m1 m) as [P|P]; rewrite P; lra.
Qed.
Lemma IZR_pow b k : IZR (b ^ Z.of_nat k) = IZR b ^ k.
Proof. symmetry. apply pow_IZR. Qed.

Lemma evM_app a b s : evM (a ++ b) s = evM a s + s ^ length a * evM b s.
Proof. induction a as [|c a IH]; cbn [app evM length pow]; [ring|]. rewrite IH. ring. Qed.
Lemma evM_seq f n s : evM (map f (seq 0 (S n))) s = sum_f_R0 (fun m => IZR (f m) * s ^ m) n.
Proof.
  induction n as [|n IH]; [cbn; ring|]. rewrite seq_S, map_app, evM_app, IH. cbn [sum_f_R0 map evM Nat.add]. rewrite map_length, seq_length. ring.
Qed.
Definition spread (l : list Z) : list Z := flat_map (fun c => [c; 0%Z]) l.
Lemma evM_spread l t : evM (spread l) t = evM l (t * t).
Proof. induction l as [|c l IH]; [reflexivity|]. unfold spread in *. cbn [flat_map app evM]. rewrite IH. ring. Qed.

Definition TD : nat := 25.
Definition tay_list : list Z := spread (map tay (seq 0 (S TD))).
Lemma tay_sum t : -1 <= t <= 1 -> Rabs (evM tay_list t - IZR S30 * ctaylor TD (3 * PI * t)) <= INR (S TD) * IZR E30.
Proof.
  intros Ht. unfold tay_list. rewrite evM_spread, evM_seq. unfold ctaylor. rewrite scal_sum, <- minus_sum.
  assert (G : forall n, (n <= TD)%nat -> Rabs (sum_f_R0 (fun m => IZR (tay m) * (t * t) ^ m - cterm (3 * PI * t) m * IZR S30) n) <= INR (S n) * IZR E30).
  { assert (B : forall m, (m <= TD)%nat -> Rabs (IZR (tay m) * (t * t) ^ m - cterm (3 * PI * t) m * IZR S30) <= IZR E30).
    { intros m Hm. pose proof (tay_near m ltac:(unfold TD in Hm; lia)) as HN.
      unfold cterm. rewrite (Rpow_mult_distr (3 * PI) t). rewrite (pow_mult t 2 m). replace (t ^ 2) with (t * t) by ring.
      match goal with |- Rabs ?e <= _ => replace e with ((IZR (tay m) - IZR S30 * ((-1) ^ m * ((3 * PI) ^ (2 * m) / INR (fact (2 * m))))) * (t * t) ^ m) by (unfold Rdiv; ring) end.
      rewrite Rabs_mult. assert (0 <= (t * t) ^ m <= 1). { split; [apply pow_le; nra|]. rewrite <- (pow1 m). apply pow_incr. nra. }
      rewrite (Rabs_right ((t * t) ^ m)) by lra. pose proof (Rabs_pos (IZR (tay m) - IZR S30 * ((-1) ^ m * ((3 * PI) ^ (2 * m) / INR (fact (2 * m)))))).
      match goal with |- ?a * ?b <= _ => apply Rle_trans with (a * 1); [apply Rmult_le_compat_l; lra|lra] end. }
    induction n as [|n IH]; intros Hn.
    - cbn [sum_f_R0 INR]. rewrite Rmult_1_l. apply B. lia.
    - cbn [sum_f_R0]. eapply Rle_trans; [apply Rabs_triang|]. rewrite (S_INR (S n)). pose proof (IH ltac:(lia)). pose proof (B (S n) Hn). lra. }
  apply G. lia.
Qed.

(** the polynomial of EvalMod over 10^17, and 10^30 times the difference *)
Definition diff30 : list Z := ladd (lscale (10 ^ 13) (prodZ 5 cos_u17)) (lscale (-1) tay_list).
Lemma diff_small : (let '(l, k) := tocheb diff30 in (labs l <=? 23300000000000000 * k)%Z && (0 <? k)%Z) = true.
Proof. vm_compute. reflexivity. Qed.
Theorem cos_poly t : -1 <= t <= 1 -> Rabs (rprod t 5 (fun n => IZR (nth n cos_u17 0%Z) / IZR (10 ^ 17)) - cos (3 * PI * t)) <= 24 / IZR (10 ^ 15).
Proof.
  intros Ht.
  assert (D : Rabs (evM diff30 t) <= IZR 23300000000000000).
  { pose proof diff_small as H. rewrite (surjective_pairing (tocheb diff30)) in H. apply andb_prop in H. destruct H as [H1 H2]. apply Z.leb_le in H1. apply Z.ltb_lt in H2. set (k := snd (tocheb diff30)) in *.
    apply IZR_le in H1. rewrite mult_IZR in H1. apply IZR_lt in H2. pose proof (tocheb_ok diff30 t) as E. fold k in E.
    pose proof (evT_bound (fst (tocheb diff30)) t Ht 0) as B. rewrite E, Rabs_mult, (Rabs_right (IZR k)) in B by lra.
    apply Rmult_le_reg_l with (IZR k); [auto|]. lra. }
  unfold diff30 in D. rewrite evM_add, !evM_scale, prodZ_ok in D by (auto; reflexivity).
  pose proof (tay_sum t Ht) as T. pose proof (cos_taylor TD (3 * PI * t)) as C.
  assert (R : (3 * PI * t) ^ (2 * S TD) / INR (fact (2 * S TD)) <= 1 / IZR (10 ^ 17)).
  { rewrite <- zfact_INR. assert (HF : 0 < IZR (zfact (2 * S TD))) by (apply IZR_lt, zfact_pos).
    assert (Z1 : (94248 ^ 52 * 10 ^ 17 <= zfact (2 * S TD) * 10 ^ 208)%Z) by (apply Z.leb_le; vm_compute; reflexivity).
    apply IZR_le in Z1. rewrite !mult_IZR in Z1.
    assert (P : (3 * PI * t) ^ (2 * S TD) <= IZR (94248 ^ 52) / IZR (10 ^ 208)).
    { rewrite <- pow_abs_even. apply Rle_trans with ((94248 / 10000) ^ (2 * S TD)).
      - apply pow_incr. split; [apply Rabs_pos|]. pose proof PI_bounds as [P1 P2]. change (10 ^ 25)%Z with 10000000000000000000000000%Z in *. pose proof PI_RGT_0. apply Rabs_le. split; nra.
      - unfold Rdiv. rewrite Rpow_mult_distr, pow_inv. change (2 * S TD)%nat with 52%nat. change (94248 ^ 52)%Z with (94248 ^ Z.of_nat 52)%Z. rewrite IZR_pow. change (10 ^ 208)%Z with (10000 ^ Z.of_nat 52)%Z. rewrite IZR_pow. apply Rle_refl. }
    assert (H18 : 0 < IZR (10 ^ 17)) by (apply IZR_lt; reflexivity). assert (H208 : 0 < IZR (10 ^ 208)) by (apply IZR_lt; reflexivity).
    set (F := IZR (zfact (2 * S TD))) in *. set (X := (3 * PI * t) ^ (2 * S TD)) in *. clearbody F X. generalize dependent (IZR (94248 ^ 52)). generalize dependent (IZR (10 ^ 208)). intros W HW Y Z1 P.
    apply Rmult_le_reg_r with F; [auto|]. replace (X / F * F) with X by (field; lra). eapply Rle_trans; [exact P|].
    apply Rmult_le_reg_r with W; [auto|]. replace (Y / W * W) with Y by (field; lra). apply Rmult_le_reg_r with (IZR (10 ^ 17)); [auto|].
    replace (1 / IZR (10 ^ 17) * F * W * IZR (10 ^ 17)) with (F * W) by (field; lra). lra. }
  assert (E : rprod t 5 (fun n => IZR (nth n cos_u17 0%Z) / IZR (10 ^ 17)) = / IZR (10 ^ 17) * rprod t 5 (fun n => IZR (nth n cos_u17 0%Z))).
  { rewrite <- rprod_scale. apply rprod_ext. intros n _. unfold Rdiv. ring. }
  rewrite E. clear E. set (P := rprod t 5 (fun n => IZR (nth n cos_u17 0%Z))) in *. set (X := (3 * PI * t) ^ (2 * S TD) / INR (fact (2 * S TD))) in *.
  set (V := evM tay_list t) in *. set (Y := ctaylor TD (3 * PI * t)) in *. set (c := cos (3 * PI * t)) in *. clearbody P X V Y c. clear Ht t.
  replace (INR (S TD)) with 26 in T by (unfold TD; rewrite INR_IZR_INZ; reflexivity). unfold S30, E30 in T.
  change (10 ^ 30)%Z with 1000000000000000000000000000000%Z in T. change (10 ^ 10)%Z with 10000000000%Z in T. change (10 ^ 13)%Z with 10000000000000%Z in D.
  change (10 ^ 17)%Z with 100000000000000000%Z. change (10 ^ 15)%Z with 1000000000000000%Z. change (10 ^ 17)%Z with 100000000000000000%Z in R.
  assert (K : forall a b, Rabs a <= b -> -b <= a <= b). { intros a b H. pose proof (Rle_abs a). pose proof (Rle_abs (- a)) as H'. rewrite Rabs_Ropp in H'. lra. }
  apply K in D, T, C. apply Rabs_le. lra.
Qed.
