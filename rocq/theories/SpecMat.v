(** Vocabulary for statements about matrices and vectors of doubles (exact arithmetic), independent of the model's
    functions. *)
From Coq Require Import ZArith List Bool.
From Verif Require Import Base GSum Matrix.
Import ListNotations.
Open Scope Z_scope.

Definition range (n : Z) : list Z := map Z.of_nat (seq 0 (Z.to_nat n)).
(** an initialised array with contents [f 0 .. f (n-1)] *)
Definition array {A} (n : Z) (f : Z -> A) : list (option A) := map (fun i => Some (f i)) (range n).
(** an array of [n] cells, initialised or not *)
Definition cells {A} (n : Z) (l : list (option A)) : Prop := length l = Z.to_nat n.

(** the SparseDiagonal object with diagonals [v s], offsets [o s] and flags [z s] *)
Definition diagonals {F} (N S : Z) (v : Z -> Z -> F) (o : Z -> Z) (z : Z -> bool) : sd F :=
  mksd (map (fun s => array N (v s)) (range S)) (array S o) (array S z).
(** an object of type SparseDiagonal<N,S>, initialised or not *)
Definition shape {F} (N S : Z) (A : sd F) : Prop :=
  length (vec A) = Z.to_nat S /\ Forall (cells N) (vec A) /\ cells S (off A) /\ cells S (zro A).

(** entry (i,j) of the N x N matrix with S diagonals: diagonal s holds the entries (i,j) with j = i + o s mod N *)
Definition matrix_of {K : ops} (N S : Z) (v : Z -> Z -> K) (o : Z -> Z) (i j : Z) : K :=
  gsum S (fun s => if (j - i - o s) mod N =? 0 then v s i else 0%num).
Definition product {K : ops} (N : Z) (A B : Z -> Z -> K) (i j : Z) : K := gsum N (fun k => (A i k * B k j)%num).
Definition apply {K : ops} (N : Z) (A : Z -> Z -> K) (x : Z -> K) (i : Z) : K := gsum N (fun j => (A i j * x j)%num).

(** different diagonals *)
Definition distinct_offsets (N S : Z) (o : Z -> Z) : Prop :=
  forall s t, 0 <= s < S -> 0 <= t < S -> (o s - o t) mod N = 0 -> s = t.
(** different diagonals among those not flagged zero *)
Definition distinct_live (S : Z) (o : Z -> Z) (z : Z -> bool) : Prop :=
  forall s t, 0 <= s < S -> 0 <= t < S -> z s = false -> z t = false -> o s = o t -> s = t.
Definition offsets_in (N S : Z) (o : Z -> Z) : Prop := forall s, 0 <= s < S -> 0 <= o s < N.

(** complex matrix with real and imaginary parts [Ar], [Ai]; complex vector as two arrays *)
Definition cmat {K : ops} (Ar Ai : Z -> Z -> K) : Z -> Z -> Cops K := fun i j => mk K (Ar i j) (Ai i j).
Definition carray {K : ops} (n : Z) (z : Z -> Cops K) : list (option K) * list (option K) :=
  (array n (fun i => cre K (z i)), array n (fun i => cim K (z i))).
Definition carray_of {K : ops} (n : Z) (p : list (option K) * list (option K)) : Prop := cells n (fst p) /\ cells n (snd p).

(** [zero[s]] set in both parts only if diagonal [s] is zero; elsewhere the two parts have the same offset *)
Definition flags_right {K : ops} (N S : Z) (vr vi : Z -> Z -> K) (o oi : Z -> Z) (zr zi : Z -> bool) : Prop :=
  forall s, 0 <= s < S ->
    if zr s && zi s then forall i, 0 <= i < N -> vr s i = 0%num /\ vi s i = 0%num
    else 0 <= o s < N /\ oi s = o s.
