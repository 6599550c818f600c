(** Specifications for frequency grids, independent of the model. *)
From Coq Require Import Reals List ZArith.
Import ListNotations.
Open Scope R_scope.

(** [f] maps the real axis onto the interval (-b, b), strictly increasing, with inverse [g], antisymmetric about [c] *)
Definition inverse_pair (f g : R -> R) (b c : R) : Prop :=
  (forall w, - b < f w < b) /\
  (forall w, g (f w) = w) /\
  (forall t, - b < t < b -> f (g t) = t) /\
  (forall w w', w < w' -> f w < f w') /\
  (forall t t', - b < t -> t < t' -> t' < b -> g t < g t') /\
  (forall x, f (c + x) = - f (c - x)) /\
  (forall t, g (- t) - c = - (g t - c)).

(** entry [i] of a grid encloses [w] together with the next one *)
Definition encloses (grid : nat -> R) (i : nat) (w : R) : Prop := grid i <= w < grid (S i).

(** a grid with [N] points from [lo] to [hi] *)
Definition grid_from_to (grid : nat -> R) (N : nat) (lo hi : R) : Prop :=
  grid 0%nat = lo /\ grid (N - 1)%nat = hi /\ (forall i j, (i < j < N)%nat -> grid i < grid j).

(** a frequency is between two limits up to a tolerance *)
Definition within (lo hi tol w : R) : Prop := lo - tol < w < hi + tol.
