(** Specification vocabulary for fixed-width integers, independent of the model: what it means for an
    array of memory cells to hold an integer.  Uses nothing but lists, [Z] and the notion of cell. *)
From Coq Require Import ZArith List Bool.
From Verif Require Import Base.
Import ListNotations.
Open Scope Z_scope.

(** Little-endian value of a list of cells; [None] if a cell is uninitialised or not a 64-bit word. *)
Fixpoint words_value (l : list cell) : option Z :=
  match l with
  | [] => Some 0
  | None :: _ => None
  | Some w :: t =>
      if (0 <=? w) && (w <? 2 ^ 64) then
        match words_value t with
        | Some v => Some (w + 2 ^ 64 * v)
        | None => None
        end
      else None
  end.

(** The object [A] of width [LOGQ] has all its ceil(LOGQ/64) words initialised and they spell the
    nonnegative integer [v] (which may exceed [2^LOGQ]: clutter above bit [LOGQ] counts). *)
Definition stores (LOGQ : Z) (A : arr) (v : Z) : Prop :=
  Z.of_nat (length A) = (LOGQ + 63) / 64 /\ words_value A = Some v.

(** [A] holds the residue class of [v] modulo [2^LOGQ], in canonical form. *)
Definition holds (LOGQ : Z) (A : arr) (v : Z) : Prop := stores LOGQ A (v mod 2 ^ LOGQ).

(** An object of width [LOGQ] with arbitrary (possibly uninitialised) contents. *)
Definition object (LOGQ : Z) (A : arr) : Prop := Z.of_nat (length A) = (LOGQ + 63) / 64.

(** The signed reading of a residue class: [s] is the representative of [v] in
    [[-2^(LOGQ-1), 2^(LOGQ-1))]. *)
Definition signed (LOGQ v s : Z) : Prop :=
  - 2 ^ (LOGQ - 1) <= s < 2 ^ (LOGQ - 1) /\ exists k, s = v + k * 2 ^ LOGQ.

(** Decimal strings: character codes, most significant first. *)
Fixpoint dec_value (acc : Z) (s : list Z) : Z :=
  match s with
  | [] => acc
  | c :: t => dec_value (acc * 10 + (c - 48)) t
  end.
Definition is_digit (c : Z) : Prop := 48 <= c <= 57.
