(** Model of include/HEAAN/arith/conv/ntt.h. *)
From Coq Require Import ZArith List Bool.
From Verif Require Import Base Util Mod.
Import ListNotations.
Open Scope Z_scope.

(** A [std::set<uint64_t>] is the strictly ascending list of its elements (its iteration order). *)
Fixpoint set_insert (x : Z) (s : list Z) : list Z :=
  match s with
  | [] => [x]
  | y :: t => if x <? y then x :: s else if x =? y then s else y :: set_insert x t
  end.

(** ntt.h:8-25 findPrimeFactors.  [i * i] and [i += 2] are 64-bit unsigned. *)
Definition findPrimeFactors (n : Z) : res (list Z) :=
  '(s, n) <- while_big (fun '(s, n) => Ok (n mod 2 =? 0))
                       (fun '(s, n) => Ok (set_insert 2 s, n / 2)) ([], n) ;;
  '(s, n, _) <- while_big (fun '(s, n, i) => Ok (wmul i i <=? n))
     (fun '(s, n, i) =>
        '(s, n) <- while_big (fun '(s, n) => r <- wmod n i ;; Ok (r =? 0))
                             (fun '(s, n) => n' <- wdiv n i ;; Ok (set_insert i s, n')) (s, n) ;;
        Ok (s, n, wadd i 2)) (s, n, 3) ;;
  Ok (if n >? 2 then set_insert n s else s).

(** The inner loop of findPrimitiveRoot (ntt.h:34-39): [passed], with its [break]. *)
Fixpoint proot_passed (r phi prime : Z) (s : list Z) : res bool :=
  match s with
  | [] => Ok true
  | it :: s' =>
      e <- wdiv phi it ;;
      p <- pow_mod r e prime ;;
      if p =? 1 then Ok false else proot_passed r phi prime s'
  end.

(** ntt.h:28-46 findPrimitiveRoot.  State: candidate [r] and the value returned from inside the loop,
    if any. *)
Definition findPrimitiveRoot (prime : Z) : res Z :=
  let phi := wsub prime 1 in
  s <- findPrimeFactors phi ;;
  '(_, ret) <- while_big
     (fun '(r, ret) => Ok (match ret with Some _ => false | None => r <=? phi end))
     (fun '(r, _) =>
        passed <- proot_passed r phi prime s ;;
        if (passed : bool) then Ok (r, Some r) else Ok (wadd r 1, None)) (2, None) ;;
  Ok (match ret with Some r => r | None => 0 end).

(** ntt.h:49-60 struct NTT *)
Record ntt_t := { ntt_q : Z; psi_rev : arr; inv_psi_rev : arr; inv_N : Z }.

(** ntt.h:62-99 constructor *)
Definition ntt_new (N q : Z) : res ntt_t :=
  LOGN <- log_ N ;;
  psi <- findPrimitiveRoot q ;;
  twoN <- int_ (2 * N) ;;
  e <- wdiv (wsub q 1) twoN ;;
  psi <- pow_mod psi e q ;;
  psi_orig <- wr (fresh N) 0 1 ;;
  psi_orig <- for_ 1 N (fun i psi_orig =>
                x <- rd psi_orig (i - 1) ;; y <- mul_mod psi x q ;; wr psi_orig i y) psi_orig ;;
  psi_rev <- for_ 0 N (fun i psi_rev =>
                b <- bitReverse i LOGN ;; x <- rd psi_orig b ;; wr psi_rev i x) (fresh N) ;;
  inv_psi <- inv_mod psi q ;;
  inv_psi_orig <- wr (fresh N) 0 1 ;;
  inv_psi_orig <- for_ 1 N (fun i inv_psi_orig =>
                x <- rd inv_psi_orig (i - 1) ;; y <- mul_mod inv_psi x q ;; wr inv_psi_orig i y) inv_psi_orig ;;
  inv_psi_rev <- for_ 0 N (fun i inv_psi_rev =>
                b <- bitReverse i LOGN ;; x <- rd inv_psi_orig b ;; wr inv_psi_rev i x) (fresh N) ;;
  inv_N <- inv_mod N q ;;
  Ok {| ntt_q := q; psi_rev := psi_rev; inv_psi_rev := inv_psi_rev; inv_N := inv_N |}.

(** ntt.h:101-116 ntt.  The outer loop doubles [m] (an [int]); at most 32 rounds. *)
Definition ntt_fwd (T : ntt_t) (N : Z) (a : arr) : res arr :=
  let q := ntt_q T in
  '(_, _, a) <- while_ 40 (fun '(m, t, a) => Ok (m <? N))
     (fun '(m, t, a) =>
        a <- for_ 0 m (fun i a =>
          let j1 := 2 * i * t in
          let j2 := j1 + t - 1 in
          S <- rd (psi_rev T) (m + i) ;;
          for_ j1 (j2 + 1) (fun j a =>
            U <- rd a j ;;
            x <- rd a (j + t) ;;
            V <- mul_mod x S q ;;
            y <- add_mod U V q ;;
            a <- wr a j y ;;
            y <- sub_mod U V q ;;
            wr a (j + t) y) a) a ;;
        m' <- int_ (m * 2) ;;
        Ok (m', Z.quot t 2, a)) (1, Z.quot N 2, a) ;;
  Ok a.

(** ntt.h:118-138 intt *)
Definition ntt_inv (T : ntt_t) (N : Z) (a : arr) : res arr :=
  let q := ntt_q T in
  '(_, _, a) <- while_ 40 (fun '(t, m, a) => Ok (m >? 1))
     (fun '(t, m, a) =>
        let h := Z.quot m 2 in
        '(_, a) <- for_ 0 h (fun i '(j1, a) =>
          let j2 := j1 + t - 1 in
          S <- rd (inv_psi_rev T) (h + i) ;;
          a <- for_ j1 (j2 + 1) (fun j a =>
            U <- rd a j ;;
            V <- rd a (j + t) ;;
            y <- add_mod U V q ;;
            a <- wr a j y ;;
            y <- sub_mod U V q ;;
            y <- mul_mod y S q ;;
            wr a (j + t) y) a ;;
          Ok (j1 + 2 * t, a)) (0, a) ;;
        t' <- int_ (t * 2) ;;
        Ok (t', Z.quot m 2, a)) (1, N, a) ;;
  for_ 0 N (fun j a => x <- rd a j ;; y <- mul_mod x (inv_N T) q ;; wr a j y) a.
