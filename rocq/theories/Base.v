(** Execution model shared by all modelled functions.

    Nothing in this file is a translation of a particular piece of /repo; it is the meaning given to
    the C++ constructs (loops, arrays, machine words) used by the translations. *)
From Coq Require Import ZArith List Bool Lia.
Import ListNotations.
Open Scope Z_scope.

(** Outcome of running a piece of code.  [Undef]: undefined behaviour (out-of-bounds access, read of
    an uninitialised cell, shift count outside [0,width), signed overflow, division by zero,
    out-of-range float-to-integer conversion).  [Abort]: failed assert.  [Diverge]: the fuel given to
    an unbounded loop ran out. *)
Inductive res (A : Type) : Type :=
| Ok (a : A)
| Undef
| Abort
| Diverge.
Arguments Ok {A} a.
Arguments Undef {A}.
Arguments Abort {A}.
Arguments Diverge {A}.

Definition bind {A B} (x : res A) (f : A -> res B) : res B :=
  match x with
  | Ok a => f a
  | Undef => Undef
  | Abort => Abort
  | Diverge => Diverge
  end.

Declare Scope res_scope.
Delimit Scope res_scope with res.
Notation "x <- e ;; k" := (bind e (fun x => k))
  (at level 100, e at next level, right associativity) : res_scope.
Notation "' p <- e ;; k" := (bind e (fun x => match x with p => k end))
  (at level 100, p pattern, e at next level, right associativity) : res_scope.
Notation "e ;;; k" := (bind e (fun _ => k)) (at level 100, right associativity) : res_scope.
Open Scope res_scope.

(** C [assert]. *)
Definition assert_ (b : bool) : res unit := if b then Ok tt else Abort.
(** A condition whose failure is undefined behaviour. *)
Definition guard (b : bool) : res unit := if b then Ok tt else Undef.

(** ** Loops *)

Fixpoint iter_up {S} (n : nat) (i : Z) (body : Z -> S -> res S) (s : S) : res S :=
  match n with
  | O => Ok s
  | S n' => s' <- body i s ;; iter_up n' (i + 1) body s'
  end.

(** [for (int i = lo; i < hi; i++) body] *)
Definition for_ {S} (lo hi : Z) (body : Z -> S -> res S) (s : S) : res S :=
  iter_up (Z.to_nat (hi - lo)) lo body s.

Fixpoint iter_down {S} (n : nat) (i : Z) (body : Z -> S -> res S) (s : S) : res S :=
  match n with
  | O => Ok s
  | S n' => s' <- body i s ;; iter_down n' (i - 1) body s'
  end.

(** [for (int i = hi; i >= lo; i--) body] *)
Definition for_down {S} (hi lo : Z) (body : Z -> S -> res S) (s : S) : res S :=
  iter_down (Z.to_nat (hi - lo + 1)) hi body s.

(** [while (cond) body] with at most [fuel] evaluations of the condition. *)
Fixpoint while_ {S} (fuel : nat) (cond : S -> res bool) (body : S -> res S) (s : S) : res S :=
  match fuel with
  | O => Diverge
  | S f =>
      b <- cond s ;;
      if (b : bool) then s' <- body s ;; while_ f cond body s' else Ok s
  end.

(** ** Arrays *)

Definition lget {A} (l : list A) (i : Z) : res A :=
  if 0 <=? i then
    match nth_error l (Z.to_nat i) with Some x => Ok x | None => Undef end
  else Undef.

Fixpoint upd {A} (n : nat) (x : A) (l : list A) : list A :=
  match l, n with
  | [], _ => []
  | _ :: t, O => x :: t
  | h :: t, S n' => h :: upd n' x t
  end.

Definition lset {A} (l : list A) (i : Z) (x : A) : res (list A) :=
  if (0 <=? i) && (i <? Z.of_nat (length l)) then Ok (upd (Z.to_nat i) x l) else Undef.

(** A memory cell; [None] is an uninitialised one. *)
Definition cell := option Z.
Definition arr := list cell.

Definition rd (l : arr) (i : Z) : res Z :=
  c <- lget l i ;;
  match c with Some x => Ok x | None => Undef end.

Definition wr (l : arr) (i : Z) (x : Z) : res arr := lset l i (Some x).

(** Freshly declared local array of [n] cells. *)
Definition fresh (n : Z) : arr := repeat None (Z.to_nat n).

(** ** 64-bit unsigned words *)

Definition W : Z := 2 ^ 64.

Definition wrap (x : Z) : Z := x mod W.
Definition wadd (a b : Z) : Z := wrap (a + b).
Definition wsub (a b : Z) : Z := wrap (a - b).
Definition wmul (a b : Z) : Z := wrap (a * b).
(** [a << k] and [a >> k] on uint64_t; undefined unless 0 <= k < 64. *)
Definition wshl (a k : Z) : res Z :=
  if (0 <=? k) && (k <? 64) then Ok (wrap (a * 2 ^ k)) else Undef.
Definition wshr (a k : Z) : res Z :=
  if (0 <=? k) && (k <? 64) then Ok (a / 2 ^ k) else Undef.
(** [a / b], [a % b] on uint64_t. *)
Definition wdiv (a b : Z) : res Z := if b =? 0 then Undef else Ok (a / b).
Definition wmod (a b : Z) : res Z := if b =? 0 then Undef else Ok (a mod b).

(** ** 32-bit signed [int] *)

Definition in_int (x : Z) : bool := (- 2 ^ 31 <=? x) && (x <? 2 ^ 31).
(** Result of a signed [int] operation: overflow is undefined. *)
Definition int_ (x : Z) : res Z := if in_int x then Ok x else Undef.
(** Conversion of a 64-bit word to [int] (gcc/clang: reduction modulo 2^32). *)
Definition to_int (x : Z) : Z :=
  let y := x mod 2 ^ 32 in if y <? 2 ^ 31 then y else y - 2 ^ 32.

Definition is_word (x : Z) : Prop := 0 <= x < W.

(** ** Loops with a large bound

    [wloop k] performs at most 2^k steps of a loop and stops as soon as the step function says so
    ([inr]).  Being logarithmic in the bound it can be run. *)
Fixpoint wloop {S} (k : nat) (step : S -> res (S + S)) (s : S) : res (S + S) :=
  match k with
  | O => step s
  | S k' =>
      r <- wloop k' step s ;;
      match r with
      | inl s' => wloop k' step s'
      | inr s' => Ok (inr s')
      end
  end.

(** [while (cond) body] with at most 2^k evaluations of the condition; [Diverge] beyond that. *)
Definition whileK {S} (k : nat) (cond : S -> res bool) (body : S -> res S) (s : S) : res S :=
  r <- wloop k (fun s => b <- cond s ;;
                         if (b : bool) then s' <- body s ;; Ok (inl s') else Ok (inr s)) s ;;
  match r with
  | inl _ => Diverge
  | inr s' => Ok s'
  end.

(** The bound used for loops of the code that have no small static bound: 2^65 iterations. *)
Definition while_big {S} := @whileK S 65.
