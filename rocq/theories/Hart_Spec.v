From Coq Require Import Reals.
From Verif Require Import Prelude.
Open Scope R_scope.

(** the self-consistency equation: the filling computed with the Hartree term U x is x *)
Definition solves (f : R -> R) (U x : R) : Prop := f (U * x) = x.
(** a filling for every Hartree term between 0 and U *)
Definition is_filling (f : R -> R) (U : R) : Prop := forall x, 0 <= x <= 1 -> 0 <= f (U * x) <= 1.
Definition lipschitz (f : R -> R) (U L : R) : Prop := forall x y, 0 <= x <= 1 -> 0 <= y <= 1 -> Rabs (f (U * x) - f (U * y)) <= L * Rabs (x - y).
Definition continuous_on_unit (f : R -> R) (U : R) : Prop := forall x, 0 <= x <= 1 -> continuity_pt (fun y => f (U * y)) x.
