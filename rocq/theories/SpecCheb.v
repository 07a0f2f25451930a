(** Chebyshev polynomials and the basis of products used by poly.h.  Nothing here refers to the model. *)
From Coq Require Import ZArith List Bool Reals.
From Verif Require Import GSum DFT SpecDFT.
Open Scope Z_scope.

(** the number n of a list of real numbers *)
Definition rcoef (us : list R) (n : Z) : R := nth (Z.to_nat n) us 0%R.

(** T_0 = 1, T_1 = x, T_{n+2} = 2 x T_{n+1} - T_n *)
Fixpoint cheb (x : CC) (n : nat) : CC :=
  match n with
  | O => 1%num
  | S m => match m with O => x | S l => (real 2 * x * cheb x m - cheb x l)%num end
  end.
(** The product of T_{2^b}(x) over the bits b < k of n *)
Fixpoint bit_product (k : nat) (x : CC) (n : Z) : CC :=
  match k with
  | O => 1%num
  | S k => (bit_product k x n * (if Z.testbit n (Z.of_nat k) then cheb x (2 ^ k) else 1))%num
  end.
(** The values at x of the sum of c_n T_n and of the sum of u_n times the product of bits of n, over n < 2^k *)
Definition cheb_value (k : nat) (c : Z -> R) (x : CC) : CC := gsum (2 ^ Z.of_nat k) (fun n => (real (c n) * cheb x (Z.to_nat n))%num).
Definition product_value (k : nat) (u : Z -> R) (x : CC) : CC := gsum (2 ^ Z.of_nat k) (fun n => (real (u n) * bit_product k x n)%num).
