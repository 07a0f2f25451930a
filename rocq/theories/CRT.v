(** Model of include/HEAAN/arith/conv/crt.h. *)
From Coq Require Import ZArith List Bool.
From Verif Require Import Base ZQ Mod.
Import ListNotations.
Open Scope Z_scope.

(** crt.h:7-14 cmpge.  The state is the value returned from inside the loop, if any. *)
Definition cmpge (LOGQ : Z) (A B : arr) : res bool :=
  r <- for_down (Z.quot (63 + LOGQ) 64 - 1) 0 (fun i r =>
         match r with
         | Some _ => Ok r
         | None =>
             a <- rd A i ;; b <- rd B i ;;
             Ok (if a >? b then Some true else if a <? b then Some false else None)
         end) None ;;
  Ok (match r with Some b => b | None => true end).

(** crt.h:17-30 struct CRT *)
Record crt_t := { crt_Q : arr; crt_q : arr; Q_over_q : list arr; inv_mod_Q_over_q : arr }.

(** The width of the accumulators, [Z_Q<64*(L+1)>]. *)
Definition wide (L : Z) : Z := 64 * (L + 1).

(** crt.h:32-62 constructor.  [q] is the caller's array (it shadows the member).  [Q_over_q[i]] is read
    once, worked on, and written back at the end of iteration [i]. *)
Definition crt_new (L : Z) (q : arr) : res crt_t :=
  mq <- for_ 0 L (fun i mq => x <- rd q i ;; wr mq i x) (fresh L) ;;
  Q <- zq_setzero (wide L) (zq_new (wide L)) ;;
  Q <- wr Q 0 1 ;;
  Q <- for_ 0 L (fun i Q => x <- rd q i ;; zq_mul_word (wide L) Q x) Q ;;
  Qq <- for_ 0 L (fun i Qq =>
          D <- lget Qq i ;;
          D <- zq_setzero (wide L) D ;;
          D <- wr D 0 1 ;;
          D <- for_ 0 L (fun j D =>
                 if negb (i =? j) then x <- rd q j ;; zq_mul_word (wide L) D x else Ok D) D ;;
          lset Qq i D) (repeat (zq_new (wide L)) (Z.to_nat L)) ;;
  inv <- for_ 0 L (fun i inv =>
           temp <- for_ 0 L (fun j temp =>
                     if negb (i =? j) then x <- rd q j ;; y <- rd q i ;; mul_mod temp x y else Ok temp) 1 ;;
           y <- rd q i ;;
           r <- inv_mod temp y ;;
           wr inv i r) (fresh L) ;;
  Ok {| crt_Q := Q; crt_q := mq; Q_over_q := Qq; inv_mod_Q_over_q := inv |}.

(** crt.h:65-92 crt.  [A] is the previous content of the output. *)
Definition crt_crt (M : crt_t) (L LOGQ : Z) (a_rns A : arr) : res arr :=
  sum <- zq_setzero (wide L) (zq_new (wide L)) ;;
  sum <- for_ 0 L (fun i sum =>
           a <- rd a_rns i ;; v <- rd (inv_mod_Q_over_q M) i ;; q <- rd (crt_q M) i ;;
           coeff <- mul_mod a v q ;;
           D <- lget (Q_over_q M) i ;;
           temp <- zq_copy (wide L) (zq_new (wide L)) D ;;
           temp <- zq_mul_word (wide L) temp coeff ;;
           zq_add (wide L) sum temp) sum ;;
  sum <- while_big (fun sum => cmpge (wide L) sum (crt_Q M)) (fun sum => zq_sub (wide L) sum (crt_Q M)) sum ;;
  neg_sum <- zq_copy (wide L) (zq_new (wide L)) (crt_Q M) ;;
  neg_sum <- zq_sub (wide L) neg_sum sum ;;
  is_negative <- cmpge (wide L) sum neg_sum ;;
  if (is_negative : bool) then
    A <- zq_resize (wide L) LOGQ neg_sum A ;;
    zq_negate LOGQ A
  else zq_resize (wide L) LOGQ sum A.

(** The residue loop shared by both branches of icrt (crt.h:104-107 and 114-117). *)
Definition icrt_residue (A : arr) (l q : Z) : res Z :=
  ah <- rd A (l - 1) ;;
  for_down (l - 2) 0 (fun j ah => x <- rd A j ;; mod_ x ah q) ah.

(** crt.h:94-121 icrt.  [a_rns] is the previous content of the output. *)
Definition crt_icrt (M : crt_t) (L LOGQ : Z) (A a_rns : arr) : res arr :=
  is_negative <- zq_is_big LOGQ A ;;
  if (is_negative : bool) then
    A_abs <- zq_copy LOGQ (zq_new LOGQ) A ;;
    A_abs <- zq_negate LOGQ A_abs ;;
    for_ 0 L (fun i a_rns =>
      q <- rd (crt_q M) i ;;
      ah <- icrt_residue A_abs (len LOGQ) q ;;
      wr a_rns i (wsub q ah)) a_rns
  else
    for_ 0 L (fun i a_rns =>
      q <- rd (crt_q M) i ;;
      ah <- icrt_residue A (len LOGQ) q ;;
      wr a_rns i ah) a_rns.
