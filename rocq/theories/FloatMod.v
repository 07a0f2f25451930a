(** Model of include/HEAAN/poly.h (5-545), of EvalMod (include/HEAAN/bootstrap.h:92-228) and of the two bootstrapping experiments
    (src/experiment/section4/proposal.cpp) in floating-point arithmetic.  The functions are those of Poly.v, EvalMod.v and Pipeline.v, with every
    operation on doubles rounded as in Float.v: a literal is the rounding of the number that is written, the conversions of the int K, of
    4*K and of the power of two 1ULL<<LOGDELTA to double are exact, as is fabs. *)
From Coq Require Import ZArith List Bool Reals.
From Verif Require Import Base ZQ RQ Conv Util Rot Core GSum Matrix DFT Encode LinTrans Bootstrap Poly EvalMod Pipeline Float FloatLin.
Import ListNotations.
Open Scope Z_scope.

Section FloatMod.
Context (F : fpu).

(** poly.h:12-18 (also 54-60 and 113-119), and with [signed] poly.h:189-196 (also 292-299 and 412-419): L0[n] *)
Definition f_L0_entry (signed : bool) (LOGQ N LOGDELTA n : Z) (x : R) : res poly :=
  D <- one_shl LOGDELTA ;;
  P <- rq_setzero LOGQ N (rq_new LOGQ N) ;;
  w <- r_to_u64 (rnd F ((if signed then Rabs x else x) * IZR D)) ;;
  P <- pupd P 0 (fun A => wr A 0 w) ;;
  P <- (if n mod 2 =? 0 then pupd P 0 (fun A => zq_mul_word LOGQ A D) else Ok P) ;;
  if signed then (if Rlt_dec x 0 then pupd P 0 (zq_negate LOGQ) else Ok P) else Ok P.
Definition f_L0_list (signed : bool) (LOGQ N LOGDELTA cnt : Z) (u : rarr) : res (list poly) :=
  for_ 0 cnt (fun n L => x <- grd u n ;; P <- f_L0_entry signed LOGQ N LOGDELTA n x ;; lset L n P) (repeat (rq_new LOGQ N) (Z.to_nat cnt)).
(** poly.h: the common structure of the functions that evaluate polynomials, as in Poly.v.  After L0 there are no doubles. *)
Definition f_eval_poly (signed : bool) (LOGQ N LOGDELTA cnt : Z) (u : rarr) (ct evk1 : sq) (evks : list sq) (p : sq) : res sq :=
  L0 <- f_L0_list signed LOGQ N LOGDELTA (2 * cnt) u ;;
  L1 <- L1_list LOGQ N LOGDELTA cnt L0 ct ;;
  eval_levels N LOGDELTA LOGQ (cnt / 2) ct L1 evk1 evks p.
(** poly.h:5-41 *)
Definition f_eval_poly_deg3 (LOGQ N LOGDELTA : Z) (u : rarr) (ct evk1 evk2 p : sq) : res sq :=
  f_eval_poly false LOGQ N LOGDELTA 2 u ct evk1 [evk2] p.
(** poly.h:43-103 *)
Definition f_eval_poly_deg7 (LOGQ N LOGDELTA : Z) (u : rarr) (ct evk1 evk2 evk3 p : sq) : res sq :=
  f_eval_poly false LOGQ N LOGDELTA 4 u ct evk1 [evk2; evk3] p.
(** poly.h:105-181 *)
Definition f_eval_poly_deg15 (LOGQ N LOGDELTA : Z) (u : rarr) (ct evk1 evk2 evk3 evk4 p : sq) : res sq :=
  f_eval_poly false LOGQ N LOGDELTA 8 u ct evk1 [evk2; evk3; evk4] p.
(** poly.h:184-282 *)
Definition f_eval_poly_deg31 (LOGQ N LOGDELTA : Z) (u : rarr) (ct evk1 evk2 evk3 evk4 evk5 p : sq) : res sq :=
  f_eval_poly true LOGQ N LOGDELTA 16 u ct evk1 [evk2; evk3; evk4; evk5] p.
(** poly.h:285-402 *)
Definition f_eval_poly_deg63 (LOGQ N LOGDELTA : Z) (u : rarr) (ct evk1 evk2 evk3 evk4 evk5 evk6 p : sq) : res sq :=
  f_eval_poly true LOGQ N LOGDELTA 32 u ct evk1 [evk2; evk3; evk4; evk5; evk6] p.
(** poly.h:404-545 *)
Definition f_eval_poly_deg127 (LOGQ N LOGDELTA : Z) (u : rarr) (ct evk1 evk2 evk3 evk4 evk5 evk6 evk7 p : sq) : res sq :=
  f_eval_poly true LOGQ N LOGDELTA 64 u ct evk1 [evk2; evk3; evk4; evk5; evk6; evk7] p.

(** bootstrap.h:149-181: the array u, whose literals are rounded by the compiler *)
Definition f_evalmod_u : list R := map (rnd F) evalmod_u.
(** A double divided by the conversion of an int to double; the quotient by zero is not a number that can be converted. *)
Definition f_quot_d (x : R) (k : Z) : res R := if k =? 0 then Undef else Ok (rnd F (x / IZR k)).
(** bootstrap.h:139-142: ct1 = ct * (1/K) *)
Definition f_em_scale (LOGQ N LOGDELTA K : Z) (ct : sq) : res sq :=
  ct_copy <- sq_copy LOGQ N (sq_new LOGQ N) ct ;;
  D <- one_shl LOGDELTA ;; x <- f_quot_d (IZR D) K ;; w <- r_to_u64 x ;;
  ct_copy <- sq_mul_word LOGQ N ct_copy w ;;
  RS LOGQ (LOGQ - LOGDELTA) N ct_copy (sq_new (LOGQ - LOGDELTA) N).
(** bootstrap.h:144-146, with [LOGQ] the modulus of ct1 *)
Definition f_em_shift (LOGQ LOGDELTA K : Z) (ct1 : sq) : res sq :=
  qtK <- zq_setzero LOGQ (zq_new LOGQ) ;;
  D <- one_shl LOGDELTA ;; k <- int_ (4 * K) ;; x <- f_quot_d (IZR D) k ;; w <- r_to_u64 x ;;
  qtK <- wr qtK 0 w ;;
  t0 <- pupd (fst ct1) 0 (fun A => zq_sub LOGQ A qtK) ;; Ok (t0, snd ct1).
(** bootstrap.h:220-223: ct8 = (1/12pi) * x.  (temp5 is an object with arbitrary contents; a new one stands for it.) *)
Definition f_em_times (LOGQ N LOGDELTA : Z) (ct6 : sq) : res sq :=
  temp5 <- sq_copy LOGQ N (sq_new LOGQ N) ct6 ;;
  D <- one_shl LOGDELTA ;; w <- r_to_u64 (rnd F (IZR D / rnd F (12 * dpi F))) ;;
  temp5 <- sq_mul_word LOGQ N temp5 w ;;
  RS LOGQ (LOGQ - LOGDELTA) N temp5 (sq_new (LOGQ - LOGDELTA) N).
(** bootstrap.h:125-228 EvalMod with the evaluation keys *)
Definition f_EvalMod_keys (LOGQ N LOGDELTA K : Z) (ct evk1 evk2 evk3 evk4 evk5 evk6 evk7 evk8 evk9 evk10 evk11 p : sq) : res sq :=
  ct1 <- f_em_scale LOGQ N LOGDELTA K ct ;;
  ct1 <- f_em_shift (LOGQ - LOGDELTA) LOGDELTA K ct1 ;;
  ct2 <- f_eval_poly_deg31 (LOGQ - LOGDELTA) N LOGDELTA (map Some f_evalmod_u) ct1 evk1 evk2 evk3 evk4 evk5 (sq_new (LOGQ - 6 * LOGDELTA) N) ;;
  ct3 <- double_angle (LOGQ - 6 * LOGDELTA) N LOGDELTA ct2 evk6 (sq_new (LOGQ - 7 * LOGDELTA) N) ;;
  ct4 <- double_angle (LOGQ - 7 * LOGDELTA) N LOGDELTA ct3 evk7 (sq_new (LOGQ - 8 * LOGDELTA) N) ;;
  ct5 <- double_angle (LOGQ - 8 * LOGDELTA) N LOGDELTA ct4 evk8 (sq_new (LOGQ - 9 * LOGDELTA) N) ;;
  ct6 <- double_angle (LOGQ - 9 * LOGDELTA) N LOGDELTA ct5 evk9 (sq_new (LOGQ - 10 * LOGDELTA) N) ;;
  ct7 <- em_square6 (LOGQ - 10 * LOGDELTA) N LOGDELTA ct6 evk10 ;;
  ct8 <- f_em_times (LOGQ - 10 * LOGDELTA) N LOGDELTA ct6 ;;
  ct9 <- Mul (LOGQ - 11 * LOGDELTA) N ct7 ct8 evk11 (sq_new (LOGQ - 11 * LOGDELTA) N) ;;
  RS (LOGQ - 11 * LOGDELTA) (LOGQ - 12 * LOGDELTA) N ct9 p.
(** bootstrap.h:92-123 EvalMod with the secret key *)
Definition f_EvalMod (LOGQ N LOGDELTA K RM : Z) (rng : nat -> Z) (pos : nat) (ct : sq) (s : arr) (p : sq) : res (nat * sq) :=
  s_sq <- conv_int N s s (fresh N) ;;
  let key := em_key LOGQ N LOGDELTA RM rng s s_sq in
  '(evk1, pos) <- key 1 pos ;;
  '(evk2, pos) <- key 2 pos ;;
  '(evk3, pos) <- key 3 pos ;;
  '(evk4, pos) <- key 4 pos ;;
  '(evk5, pos) <- key 5 pos ;;
  '(evk6, pos) <- key 6 pos ;;
  '(evk7, pos) <- key 7 pos ;;
  '(evk8, pos) <- key 8 pos ;;
  '(evk9, pos) <- key 9 pos ;;
  '(evk10, pos) <- key 10 pos ;;
  '(evk11, pos) <- key 11 pos ;;
  p <- f_EvalMod_keys LOGQ N LOGDELTA K ct evk1 evk2 evk3 evk4 evk5 evk6 evk7 evk8 evk9 evk10 evk11 p ;;
  Ok (pos, p).

(** The bootstrapping; [lpow] is pow of the C library, and mod_raise, RS, the differences and the resizings do not use doubles. *)
Context (lpow : R -> R -> R).
Section Pipeline.
Context (LOGq LOGQ LOGN LOGDELTA_cts LOGDELTA_boot LOGDELTA_stc G K RM : Z) (rng : nat -> Z).
Let Q1 := LOGQ_after_cts LOGQ LOGN LOGDELTA_cts G.
Let Q2 := LOGQ_after_evalmod LOGQ LOGN LOGDELTA_cts LOGDELTA_boot G.
Let Q3 := LOGQ_after_stc LOGQ LOGN LOGDELTA_cts LOGDELTA_boot LOGDELTA_stc G.
(** proposal.cpp:31-43 and 98-110 *)
Definition f_boot_front (stc st : tables) (pos : nat) (ct_modraise : sq) (s : arr) : res (tables * tables * nat * (sq * sq) * (sq * sq)) :=
  let N := boot_N LOGN in
  '(stc, st, pos, c0, c1) <- f_CoeffToSlot F lpow LOGQ LOGN LOGDELTA_cts RM rng G stc st pos ct_modraise s (sq_new LOGQ N) (sq_new LOGQ N) ;;
  r0 <- RS LOGQ Q1 N c0 (sq_new Q1 N) ;;
  r1 <- RS LOGQ Q1 N c1 (sq_new Q1 N) ;;
  '(pos, e0) <- f_EvalMod Q1 N LOGDELTA_boot K RM rng pos r0 s (sq_new Q2 N) ;;
  '(pos, e1) <- f_EvalMod Q1 N LOGDELTA_boot K RM rng pos r1 s (sq_new Q2 N) ;;
  Ok (stc, st, pos, (r0, r1), (e0, e1)).
(** proposal.cpp:45-51 and 119-125 *)
Definition f_boot_back (sts : stables) (st : tables) (pos : nat) (c0 c1 : sq) (s : arr) : res (stables * tables * nat * sq) :=
  let N := boot_N LOGN in
  '(sts, st, pos, ct_stc) <- f_SlotToCoeff F Q2 LOGN LOGDELTA_stc RM rng G sts st pos c0 c1 s (sq_new Q2 N) ;;
  ct <- RS Q2 Q3 N ct_stc (sq_new Q3 N) ;;
  Ok (sts, st, pos, ct).
(** proposal.cpp:27-51 *)
Definition f_conventional_boot (stc : tables) (sts : stables) (st : tables) (pos : nat) (ct : sq) (s : arr) : res (tables * stables * tables * nat * sq) :=
  let N := boot_N LOGN in
  ct_modraise <- mod_raise LOGq LOGQ N ct (sq_new LOGQ N) ;;
  '(stc, st, pos, _, e) <- f_boot_front stc st pos ct_modraise s ;;
  '(sts, st, pos, ct_boot) <- f_boot_back sts st pos (fst e) (snd e) s ;;
  Ok (stc, sts, st, pos, ct_boot).
(** proposal.cpp:94-130 *)
Definition f_proposed_boot (stc : tables) (sts : stables) (st : tables) (pos : nat) (ct : sq) (s : arr) : res (tables * stables * tables * nat * sq) :=
  let N := boot_N LOGN in
  ct_modraise <- mod_raise LOGq LOGQ N ct (sq_new LOGQ N) ;;
  '(stc, st, pos, r, e) <- f_boot_front stc st pos ct_modraise s ;;
  q0 <- evalqI LOGQ LOGN LOGDELTA_cts LOGDELTA_boot G (fst r) (fst e) ;;
  q1 <- evalqI LOGQ LOGN LOGDELTA_cts LOGDELTA_boot G (snd r) (snd e) ;;
  '(sts, st, pos, ct_qI) <- f_boot_back sts st pos q0 q1 s ;;
  ct_boot <- sq_resize LOGQ Q3 N ct_modraise (sq_new Q3 N) ;;
  ct_boot <- sq_sub Q3 N ct_boot ct_qI ;;
  Ok (stc, sts, st, pos, ct_boot).
End Pipeline.
End FloatMod.

(** With exact arithmetic these are the functions of Poly.v; those of EvalMod.v and Pipeline.v differ in the constant PI_macro only. *)
Lemma exact_eval_poly : f_eval_poly exact_fpu = eval_poly.  Proof. reflexivity. Qed.
Lemma exact_EvalMod co si : f_EvalMod (mkfpu (fun x => x) PI_macro co si) = EvalMod.  Proof. reflexivity. Qed.
