(** The polynomials modulo a number, and statements about all but a few of them.  Nothing here refers to the model. *)
From Coq Require Import ZArith List Reals.
Import ListNotations.
Open Scope Z_scope.

(** The q = 2 p numbers -p, ..., p - 1, which represent the residues modulo q. *)
Definition residues (p : Z) : list Z := map (fun k => Z.of_nat k - p) (seq 0 (Z.to_nat (2 * p))).
(** All lists of n such numbers; there are q^n. *)
Fixpoint vectors (p : Z) (n : nat) : list (list Z) :=
  match n with O => [[]] | S n => flat_map (fun x => map (cons x) (vectors p n)) (residues p) end.
(** [P] holds for all polynomials with N coefficients modulo 2^LOGq except a fraction of at most [eps] of them. *)
Definition almost_all (LOGq N : Z) (eps : R) (P : list Z -> Prop) : Prop :=
  let V := vectors (2 ^ (LOGq - 1)) (Z.to_nat N) in
  exists bad, incl bad V /\ NoDup bad /\ (INR (length bad) <= eps * INR (length V))%R /\ forall a, In a V -> ~ In a bad -> P a.

(** Chernoff's bound with parameter 2/q for a sum of h residues modulo q = 2 p, divided by q, to reach B + 1/4 *)
Definition tail_bound (h : nat) (p : Z) (B : Z) : R := (exp (- (2 * (IZR B + / 4))) * ((exp 1 - exp (- 1)) / 2 * exp (/ IZR p)) ^ h)%R.
