(** Model of the rotations and conjugations of include/HEAAN/linear_transform.h (lines 6-84).  The written
    parameter is a different object from the read one. *)
From Coq Require Import ZArith List Bool.
From Verif Require Import Base ZQ RQ Conv Util Core.
Import ListNotations.
Open Scope Z_scope.

(** linear_transform.h:6-13 rot on int arrays, one step *)
Definition rot_int1 (N : Z) (s s_rot : arr) : res arr :=
  for_ 0 N (fun i s_rot =>
    f <- int_ (5 * i) ;;
    let q := Z.quot f N in
    let r := Z.rem f N in
    x <- rd s i ;;
    y <- (if Z.rem q 2 =? 0 then Ok x else int_ (- x)) ;;
    wr s_rot r y) s_rot.

(** linear_transform.h:18-21 and 34-37: 5^r mod 2N *)
Definition rot_pow (N r : Z) : res Z :=
  for_ 0 r (fun _ pow => f <- int_ (5 * pow) ;; m <- int_ (2 * N) ;; Ok (Z.rem f m)) 1.

(** linear_transform.h:15-29 rot on int arrays, r steps *)
Definition rot_int (N : Z) (s s_rot : arr) (r : Z) : res arr :=
  pow <- rot_pow N r ;;
  '(s_rot, _) <- for_ 0 N (fun i '(s_rot, j) =>
    x <- rd s i ;;
    s_rot <- (if j <? N then wr s_rot j x else y <- int_ (- x) ;; wr s_rot (j - N) y) ;;
    t <- int_ (j + pow) ;; m <- int_ (2 * N) ;; Ok (s_rot, Z.rem t m)) (s_rot, 0) ;;
  Ok s_rot.

(** linear_transform.h:31-47 rot on R_Q *)
Definition rot_poly (LOGQ N : Z) (pt pt_rot : poly) (r : Z) : res poly :=
  pow <- rot_pow N r ;;
  '(pt_rot, _) <- for_ 0 N (fun i '(pt_rot, j) =>
    x <- lget pt i ;;
    pt_rot <- (if j <? N then pupd pt_rot j (fun d => zq_copy LOGQ d x)
               else pt_rot <- pupd pt_rot (j - N) (fun d => zq_copy LOGQ d x) ;;
                    pupd pt_rot (j - N) (zq_negate LOGQ)) ;;
    t <- int_ (j + pow) ;; m <- int_ (2 * N) ;; Ok (pt_rot, Z.rem t m)) (pt_rot, 0) ;;
  Ok pt_rot.

(** linear_transform.h:52-59 rot_ct *)
Definition rot_ct (LOGQ N : Z) (ct : sq) (off : Z) (rkey ct_rot : sq) : res sq :=
  c0 <- rot_poly LOGQ N (fst ct) (fst ct_rot) off ;;
  c1 <- rot_poly LOGQ N (snd ct) (snd ct_rot) off ;;
  ks LOGQ N rkey (c0, c1).

(** linear_transform.h:61-65 conj on int arrays *)
Definition conj_int (N : Z) (s s_conj : arr) : res arr :=
  x <- rd s 0 ;; s_conj <- wr s_conj 0 x ;;
  for_ 1 N (fun i s_conj => x <- rd s (N - i) ;; y <- int_ (- x) ;; wr s_conj i y) s_conj.

(** linear_transform.h:67-75 conj on R_Q *)
Definition conj_poly (LOGQ N : Z) (pt pt_conj : poly) : res poly :=
  x <- lget pt 0 ;; pt_conj <- pupd pt_conj 0 (fun d => zq_copy LOGQ d x) ;;
  for_ 1 N (fun i pt_conj =>
    x <- lget pt (N - i) ;;
    pt_conj <- pupd pt_conj i (fun d => zq_copy LOGQ d x) ;;
    pupd pt_conj i (zq_negate LOGQ)) pt_conj.

(** linear_transform.h:77-84 conj on ciphertexts *)
Definition conj_ct (LOGQ N : Z) (ct ckey ct_conj : sq) : res sq :=
  c0 <- conj_poly LOGQ N (fst ct) (fst ct_conj) ;;
  c1 <- conj_poly LOGQ N (snd ct) (snd ct_conj) ;;
  ks LOGQ N ckey (c0, c1).

(** bootstrap.h:8-12 mod_raise *)
Definition mod_raise (LOGQfr LOGQto N : Z) (ct_fr ct_to : sq) : res sq := sq_resize LOGQfr LOGQto N ct_fr ct_to.

(** src/experiment/section4/proposal.cpp:95-96 and 127-132: the end of the EvalRound bootstrapping.  [ct_qI] is what
    the lines between have computed (a ciphertext of the multiple of q that mod_raise adds, up to an error); the
    two casts resize through LOGQ are kept.  Printing and decoding are left out here. *)
Definition evalround_sub (LOGq LOGQ LOGQb N : Z) (ct ct_qI : sq) (s : arr) : res poly :=
  ct_modraise <- mod_raise LOGq LOGQ N ct (sq_new LOGQ N) ;;
  ct_boot <- sq_resize LOGQ LOGQb N ct_modraise (sq_new LOGQb N) ;;
  ct_boot <- sq_sub LOGQb N ct_boot ct_qI ;;
  dec LOGQb N ct_boot s (rq_new LOGQb N).

(** proposal.cpp:136-138: e = pt - pt_out *)
Definition evalround_err (LOGq LOGQb N : Z) (pt pt_out : poly) : res poly :=
  e <- rq_resize LOGq LOGQb N pt (rq_new LOGQb N) ;; rq_sub LOGQb N e pt_out.
