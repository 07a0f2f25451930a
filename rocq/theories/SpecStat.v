(** Means of random quantities and the assumptions of section 3 on rounding errors.  Nothing here refers to the model. *)
From Coq Require Import ZArith Reals.
Open Scope R_scope.

(** [E] is the mean of the quantities that satisfy [I] (those with a mean) over the outcomes [Omega] *)
Record expectation {Omega : Type} (I : (Omega -> R) -> Prop) (E : (Omega -> R) -> R) : Prop := mkexp {
  mean_const : forall c, I (fun _ => c) /\ E (fun _ => c) = c;
  mean_plus : forall f g, I f -> I g -> I (fun w => f w + g w) /\ E (fun w => f w + g w) = E f + E g;
  mean_scale : forall c f, I f -> I (fun w => c * f w) /\ E (fun w => c * f w) = c * E f;
  mean_ext : forall f g, I f -> (forall w, f w = g w) -> I g /\ E g = E f;
  mean_positive : forall f, I f -> (forall w, 0 <= f w) -> 0 <= E f }.

(** S random vectors of N coordinates each, all of mean square v and without correlations *)
Definition uncorrelated {Omega : Type} (I : (Omega -> R) -> Prop) (E : (Omega -> R) -> R) (S N : Z) (v : R) (e : Omega -> Z -> Z -> R) : Prop :=
  forall s i t j, (0 <= s < S)%Z -> (0 <= i < N)%Z -> (0 <= t < S)%Z -> (0 <= j < N)%Z ->
    I (fun w => e w s i * e w t j) /\
    E (fun w => e w s i * e w t j) = if ((s =? t) && (i =? j))%bool%Z then v else 0.
