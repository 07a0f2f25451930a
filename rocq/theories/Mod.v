(** Model of include/HEAAN/arith/conv/mod.h and conv/assembly/*.asm.  All arguments are 64-bit words. *)
From Coq Require Import ZArith List Bool.
From Verif Require Import Base.
Open Scope Z_scope.

(** mod.h:28-34 mod, non-Windows variant on [unsigned __int128]. *)
Definition mod_ (al ah q : Z) : res Z :=
  let a := ah in
  let b := (a * 2 ^ 64) mod 2 ^ 128 in
  let c := (b + al) mod 2 ^ 128 in
  if q =? 0 then Undef else
  let d := c mod q in
  Ok (d mod 2 ^ 64).

(** x86-64 [div r]: divides rdx:rax by r; quotient to rax, remainder to rdx; #DE when r = 0 or the
    quotient does not fit 64 bits.  Returns (rax, rdx). *)
Definition x86_div (rax rdx r : Z) : res (Z * Z) :=
  if r =? 0 then Undef else
  let n := rdx * 2 ^ 64 + rax in
  if n / r <? 2 ^ 64 then Ok (n / r, n mod r) else Undef.

(** x86-64 [mul r]: rdx:rax := rax * r.  Returns (rax, rdx). *)
Definition x86_mul (rax r : Z) : Z * Z := ((rax * r) mod 2 ^ 64, (rax * r) / 2 ^ 64).

(** assembly/mod.asm:10-41 mod_asm, instruction by instruction (rcx = al, rdx = ah, r8 = q). *)
Definition mod_asm (rcx rdx r8 : Z) : res Z :=
  let rax := rcx in                         (* mov rax, rcx *)
  let rcx := rdx in                         (* mov rcx, rdx *)
  let rdx := 0 in                           (* xor rdx, rdx *)
  '(rax, rdx) <- x86_div rax rdx r8 ;;      (* div r8 *)
  let r9 := rdx in                          (* mov r9, rdx *)
  let rax := rcx in                         (* mov rax, rcx *)
  let rdx := 0 in                           (* xor rdx, rdx *)
  '(rax, rdx) <- x86_div rax rdx r8 ;;      (* div r8 *)
  let rax := r9 in                          (* mov rax, r9 *)
  '(rax, rdx) <- x86_div rax rdx r8 ;;      (* div r8 *)
  let rax := rdx in                         (* mov rax, rdx *)
  Ok rax.

(** assembly/mul_lo.asm:10-18, assembly/mul_hi.asm:10-18 (rcx = a, rdx = b). *)
Definition mul_lo_asm (rcx rdx : Z) : Z :=
  let rax := rcx in let '(rax, rdx) := x86_mul rax rdx in rax.
Definition mul_hi_asm (rcx rdx : Z) : Z :=
  let rax := rcx in let '(rax, rdx) := x86_mul rax rdx in let rax := rdx in rax.

(** mod.h:36-42 mul_; returns (lo, hi). *)
Definition mul_ (a b : Z) : Z * Z :=
  let c := (a * b) mod 2 ^ 128 in
  (c mod 2 ^ 64, (c / 2 ^ 64) mod 2 ^ 64).

(** mod.h:18-21 mul_, Windows variant. *)
Definition mul_win (a b : Z) : Z * Z := (mul_lo_asm a b, mul_hi_asm a b).

(** mod.h:45-51 add_mod *)
Definition add_mod (a b q : Z) : res Z :=
  let tempL := wadd a b in
  let tempH := if tempL <? a then 1 else 0 in
  mod_ tempL tempH q.

(** mod.h:53-56 sub_mod *)
Definition sub_mod (a b q : Z) : res Z :=
  r <- wmod b q ;;
  add_mod a (wsub q r) q.

(** mod.h:58-63 mul_mod *)
Definition mul_mod (a b q : Z) : res Z :=
  let '(tempL, tempH) := mul_ a b in
  mod_ tempL tempH q.

(** mod.h:65-74 pow_mod.  The recursion halves the 64-bit exponent, so its depth is at most 65: that
    is the fuel. *)
Fixpoint pow_mod_rec (fuel : nat) (a n q : Z) : res Z :=
  match fuel with
  | O => Diverge
  | S f =>
      if n =? 0 then Ok 1 else
      r <- pow_mod_rec f a (n / 2) q ;;
      r <- mul_mod r r q ;;
      if n mod 2 =? 1 then mul_mod a r q else Ok r
  end.
Definition pow_mod (a n q : Z) : res Z := pow_mod_rec 66 a n q.

(** mod.h:76-79 inv_mod *)
Definition inv_mod (a q : Z) : res Z := pow_mod a (wsub q 2) q.
