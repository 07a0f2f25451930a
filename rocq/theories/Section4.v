(** Model of include/experiment/setup.h (test messages and the printed errors), of sup_norm of include/impl/message.h and of the programs
    measure_b_evalmod.cpp, example_sup_norm.cpp (check_sup_norm_bound), design_delta_tilde.cpp and design_delta_tilde_lattigo.cpp of
    src/experiment/section4/ of src/test/evalMod_test.cpp and of the constants printed by src/experiment/section3/theorem_cts_error.cpp.  [double] is the type of real numbers
    and arithmetic is exact; the division 0/0 is Undef.  Printing is left out: the functions return the numbers that are printed. *)
From Coq Require Import ZArith List Bool Reals.
From Verif Require Import Base Util ZQ RQ Rot Conv Core GSum Matrix DFT Encode EvalMod.
Import ListNotations.
Open Scope Z_scope.

(** message.h:68-76 sup_norm *)
Definition msg_sup_norm (n : Z) (z : rarr * rarr) : res R :=
  for_ 0 n (fun i max =>
    a <- grd (fst z) i ;; b <- grd (snd z) i ;;
    let abs := sqrt (a * a + b * b) in
    Ok (if Rlt_dec max abs then abs else max)) 0%R.

(** setup.h:33-42 print_max_error: the two maxima, of which the logarithms are printed.  std::max(a,b) is b if a < b and a otherwise. *)
Definition max_error (n : Z) (z z_out : rarr * rarr) : res (R * R) :=
  for_ 0 n (fun i '(er, ei) =>
    a <- grd (fst z) i ;; b <- grd (fst z_out) i ;;
    let er := if Rlt_dec er (Rabs (a - b)) then Rabs (a - b) else er in
    a <- grd (snd z) i ;; b <- grd (snd z_out) i ;;
    let ei := if Rlt_dec ei (Rabs (a - b)) then Rabs (a - b) else ei in
    Ok (er, ei)) (0%R, 0%R).

(** setup.h:23-31 set_test_message; PI is the macro of util.h *)
Definition set_test_message (n : Z) (z : rarr * rarr) : res (rarr * rarr) :=
  for_ 0 n (fun i '(r, im) =>
    let x := (IZR i / IZR n * PI_macro)%R in
    r <- gwr r i (cos x / sqrt 2)%R ;; im <- gwr im i (sin x / sqrt 2)%R ;; Ok (r, im)) z.

(** setup.h:51-58 set_evalmod_message *)
Definition set_evalmod_message (n : Z) (z : rarr * rarr) : res (rarr * rarr) :=
  for_ 0 n (fun i '(r, im) => r <- gwr r i (1 / 10000 + IZR (Z.rem i 24))%R ;; im <- gwr im i 0%R ;; Ok (r, im)) z.

(** setup.h:68-78 set_test_matrix: both assignments are to A[k].r[i] *)
Definition set_test_matrix (n K : Z) (A : list (rarr * rarr)) : res (list (rarr * rarr)) :=
  for_ 0 K (fun k A =>
    for_ 0 n (fun i A =>
      t <- int_ (k * i) ;;
      let x := (IZR t / IZR n * PI_macro)%R in
      '(r, im) <- lget A k ;;
      r <- gwr r i (cos x / sqrt 2)%R ;; A <- lset A k (r, im) ;;
      '(r, im) <- lget A k ;;
      r <- gwr r i (sin x / sqrt 2)%R ;; lset A k (r, im)) A) A.

(** measure_b_evalmod.cpp:17-29: z and z_evalmod_exact *)
Definition eps_num (N : Z) : Z := Z.quot (Z.quot (Z.quot N 2) 49 - 1) 2.
Definition evalmod_messages (N : Z) : res ((rarr * rarr) * (rarr * rarr)) :=
  let n := Z.quot N 2 in
  z <- msg_new (K := Rops) n ;;
  x <- msg_new (K := Rops) n ;;
  let q_per_Delta := IZR (2 ^ 10) in
  '(zr, xr, idx) <- for_ (-24) 25 (fun i st =>
      for_ (- eps_num N) (eps_num N + 1) (fun j '(zr, xr, idx) =>
        guard (negb (eps_num N =? 0)) ;;;
        zr <- gwr zr idx (IZR i * q_per_Delta + IZR j / IZR (eps_num N))%R ;;
        xr <- gwr xr idx (IZR j / IZR (eps_num N))%R ;;
        idx <- int_ (idx + 1) ;;
        Ok (zr, xr, idx)) st) (fst z, fst x, 0) ;;
  Ok ((zr, snd z), (xr, snd x)).

(** measure_b_evalmod.cpp:6-53.  [st] and [st2] are the static tables of ifftNR and fftNR, [fuel] is for keygen.  s_sq is not used.
    Returns z_evalmod and the number printed. *)
Definition measure_b_evalmod (fuel : nat) (LOGQ LOGN LOGDELTA LOGDELTA_boot K H RM : Z) (rnd : nat -> Z) (st st2 : tables) (pos : nat) : res (tables * tables * nat * ((rarr * rarr) * R)) :=
  let N := 2 ^ LOGN in
  let n := Z.quot N 2 in
  '(s, pos) <- keygen fuel N rnd H (fresh N) pos ;;
  '(z, x) <- evalmod_messages N ;;
  '(st, pt) <- encode LOGQ LOGN st (fst z) (snd z) (2 ^ LOGDELTA) (rq_new LOGQ N) ;;
  '(ct, pos) <- enc LOGQ N RM rnd pt s (sq_new LOGQ N) pos ;;
  let LOGQ_after := LOGQ - 12 * LOGDELTA_boot in
  '(pos, c) <- for_ 0 2 (fun _ '(pos, c) => EvalMod LOGQ N LOGDELTA_boot K RM rnd pos ct s c) (pos, sq_new LOGQ_after N) ;;
  pt <- dec LOGQ_after N c s (rq_new LOGQ_after N) ;;
  y <- msg_new (K := Rops) n ;;
  '(st2, y) <- decode_log LOGQ_after LOGN st2 pt LOGDELTA (fst y) (snd y) ;;
  e <- msg_new (K := Rops) n ;;
  e <- msg_sub (K := Rops) n x y e ;;
  ei <- for_ 0 n (fun i ei => gwr ei i 0%R) (snd e) ;;
  b <- msg_sup_norm n (fst e, ei) ;;
  Ok (st, st2, pos, (y, b)).

(** src/test/evalMod_test.cpp:6-28 EvalMod_test; s_sq is not used.  Returns z_out, which is printed. *)
Definition evalmod_test (fuel : nat) (LOGQ LOGN LOGDELTA_boot K H RM : Z) (rnd : nat -> Z) (st st2 : tables) (pos : nat) : res (tables * tables * nat * (rarr * rarr)) :=
  let N := 2 ^ LOGN in
  let n := Z.quot N 2 in
  '(s, pos) <- keygen fuel N rnd H (fresh N) pos ;;
  z <- msg_new (K := Rops) n ;;
  z_out <- msg_new (K := Rops) n ;;
  z <- set_evalmod_message n z ;;
  '(st, pt) <- encode LOGQ LOGN st (fst z) (snd z) (2 ^ LOGDELTA_boot) (rq_new LOGQ N) ;;
  '(ct, pos) <- enc LOGQ N RM rnd pt s (sq_new LOGQ N) pos ;;
  let LOGQ_out := LOGQ - 12 * LOGDELTA_boot in
  '(pos, c) <- EvalMod LOGQ N LOGDELTA_boot K RM rnd pos ct s (sq_new LOGQ_out N) ;;
  pt <- dec LOGQ_out N c s (rq_new LOGQ_out N) ;;
  '(st2, z_out) <- decode_log LOGQ_out LOGN st2 pt LOGDELTA_boot (fst z_out) (snd z_out) ;;
  Ok (st, st2, pos, z_out).

(** example_sup_norm.cpp:17-33, one iteration of the loop over r with the random message [z]: sup_norm_ratio *)
Definition sup_norm_ratio (LOGQ LOGN Delta : Z) (st : tables) (z : rarr * rarr) : res (tables * R) :=
  let N := 2 ^ LOGN in
  '(st, pt) <- encode LOGQ LOGN st (fst z) (snd z) Delta (rq_new LOGQ N) ;;
  '(norm, sup_norm) <- for_ 0 N (fun i '(norm, sup_norm) =>
      p <- lget pt i ;;
      val <- zq_copy LOGQ (zq_new LOGQ) p ;;
      big <- zq_is_big LOGQ val ;;
      val <- (if (big : bool) then zq_negate LOGQ val else Ok val) ;;
      w <- rd val 0 ;;
      let a := IZR w in
      Ok (norm + a * a, if Rlt_dec sup_norm a then a else sup_norm)%R) (0%R, 0%R) ;;
  let norm := sqrt norm in
  if Req_EM_T norm 0 then Undef else Ok (st, sup_norm / (norm / sqrt (IZR N)))%R.

(** Conversion of double to int *)
Definition r_to_int (x : R) : res Z := int_ (if Rlt_dec x 0 then - Int_part (- x) else Int_part x).
(** (int) ceil(log2(x)); log2 of a number that is not positive is no finite number, and its conversion to int is undefined *)
Definition ceil_log2 (x : R) : res Z :=
  if Rlt_dec 0 x then int_ (- Int_part (- (ln x / ln 2))) else Undef.

(** theorem_cts_error.cpp:17-21, example_sup_norm.cpp:55-59, design_delta_tilde.cpp:16-20: D, Diag and C1.  pow(3, G) is 3^G. *)
Definition cts_constants (LOGN G H : Z) : res (Z * Z * R) :=
  guard (negb (G =? 0)) ;;;
  assert_ (Z.rem (LOGN - 1) G =? 0) ;;;
  let D := Z.quot (LOGN - 1) G in
  Diag <- int_ (3 ^ G) ;;
  H1 <- int_ (H + 1) ;;
  HD <- int_ (H1 * Diag) ;;
  guard (negb (D =? 0)) ;;;
  Ok (D, Diag, IZR D * sqrt (IZR HD) / 12 * Rpower 2 (1 / IZR (2 * D)))%R.

(** theorem_cts_error.cpp:79: e_norm_expected; (1 << (LOGq - LOGDELTA)) is an int *)
Definition cts_expected (LOGN G H LOGq LOGDELTA LOGDELTA_boot_tilde : Z) : res R :=
  '(D, Diag, C1) <- cts_constants LOGN G H ;;
  guard ((0 <=? LOGq - LOGDELTA) && (LOGq - LOGDELTA <? 31)) ;;;
  Ok (C1 / IZR (2 ^ LOGDELTA_boot_tilde) * Rpower (IZR (2 ^ LOGN)) (1 + 1 / IZR (2 * D)) * IZR (2 ^ (LOGq - LOGDELTA)))%R.
(** theorem_cts_error.cpp:84-90: the "sanity check" *)
Definition cts_expected_check (LOGN G H LOGq LOGDELTA LOGDELTA_boot_tilde : Z) : res R :=
  '(D, Diag, C1) <- cts_constants LOGN G H ;;
  let N := 2 ^ LOGN in
  let q := IZR (2 ^ LOGq) in
  let z_amb := (sqrt (IZR (Z.quot N 2)) / IZR (2 ^ LOGDELTA) * sqrt ((IZR H + 1) / 12 * q * q * IZR N))%R in
  DN <- int_ (Diag * N) ;;
  let p_U0 := (sqrt (IZR DN / 12) / IZR (2 ^ LOGDELTA_boot_tilde))%R in
  let U0_norm := Rpower (sqrt 2 / Rpower (IZR N) (1 / IZR (LOGN - 1))) (IZR G) in
  Ok (z_amb * p_U0 * IZR D * Rpower U0_norm (IZR (D - 1)) * 2)%R.
(** theorem_cts_error.cpp:45: z_amb_norm_expected; (H+1)/12 is a division of ints *)
Definition z_amb_expected (LOGN H LOGq LOGDELTA : Z) : R :=
  let N := 2 ^ LOGN in let q := IZR (2 ^ LOGq) in
  (sqrt (IZR (Z.quot N 2)) / IZR (2 ^ LOGDELTA) * sqrt (IZR (Z.quot (H + 1) 12) * q * q * IZR N))%R.

(** design_delta_tilde.cpp:6-38: the numbers printed as Delta_tilde.  The constants are those of rns.h. *)
Definition design_delta_tilde (LOGN G H LOGq LOGDELTA : Z) : res (Z * Z) :=
  '(D, Diag, C1) <- cts_constants LOGN G H ;;
  let C2 := 5%R in
  guard ((0 <=? LOGq - LOGDELTA) && (LOGq - LOGDELTA <? 31)) ;;;
  let sim := (C1 * Rpower (IZR (2 ^ LOGN)) (1 + 1 / IZR (2 * D)) * IZR (2 ^ (LOGq - LOGDELTA)))%R in
  log_sim <- ceil_log2 sim ;;
  let epsilon := 1%R in
  let d := (epsilon * sqrt (IZR (2 ^ LOGN)) / C2 - 1)%R in
  if Req_EM_T d 0 then Undef else
  let tight_ratio := (1 / d)%R in
  tight <- r_to_int (sim * tight_ratio)%R ;;
  log_tight <- ceil_log2 (IZR tight) ;;
  Ok (log_sim, log_tight).

(** design_delta_tilde_lattigo.cpp:8-36 with the constants of lattigo.h as parameters and [G] the list of the four numbers of line 10: the numbers
    printed as "error expected" and "we want error goes under".  Diag[i] = pow(3, G[i]); Diag[i]*N is an int. *)
Definition lattigo_p_A (LOGN LOGDELTA_boot_tilde g : Z) : res R :=
  Diag <- int_ (3 ^ g) ;;
  DN <- int_ (Diag * 2 ^ LOGN) ;;
  Ok (sqrt (IZR DN / 12) / IZR (2 ^ LOGDELTA_boot_tilde))%R.
Definition lattigo_A_norm (LOGN g : Z) : R := Rpower (sqrt 2 / Rpower (IZR (2 ^ LOGN)) (1 / IZR (LOGN - 1))) (IZR g).
Definition design_delta_tilde_lattigo (LOGN H LOGq LOGDELTA LOGDELTA_boot_tilde : Z) (G : list Z) : res (R * R) :=
  let N := 2 ^ LOGN in
  let q := IZR (2 ^ LOGq) in
  let z_amb := (sqrt (IZR (Z.quot N 2)) / IZR (2 ^ LOGDELTA) * sqrt ((IZR H + 1) / 12 * q * q * IZR N))%R in
  theorem1_const <- for_ 0 4 (fun i theorem1_const =>
      g <- lget G i ;;
      p_A <- lattigo_p_A LOGN LOGDELTA_boot_tilde g ;;
      norm_const <- for_ 0 4 (fun j norm_const =>
          gj <- lget G j ;;
          Ok (if i =? j then norm_const else (norm_const * lattigo_A_norm LOGN gj)%R)) 1%R ;;
      Ok (theorem1_const + p_A * norm_const)%R) 0%R ;;
  let e := (z_amb * theorem1_const * 2)%R in
  guard ((0 <=? LOGq - LOGDELTA) && (LOGq - LOGDELTA <? 31)) ;;;
  Ok ((e * 5 / sqrt (IZR N))%R, (Rpower 2 (-15) * IZR (2 ^ (LOGq - LOGDELTA)) / 2)%R).
