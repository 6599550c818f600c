From Coq Require Import Reals.
From Verif Require Import Prelude Bracket_Model.
Open Scope R_scope.

Definition ordered (t : triple) : Prop := 0 < lo t /\ lo t < mid t /\ mid t < hi t.
Definition triple_of (o : outcome) : triple := match o with Bracketed t | GaveUp t | Thrown t | OutOfFuel t => t end.
(** the middle value is below the values at both ends *)
Definition below_ends (cost : R -> num) (t : triple) : Prop :=
  exists fa fm fb, cost (lo t) = Some fa /\ cost (mid t) = Some fm /\ cost (hi t) = Some fb /\ fm < fa /\ fm < fb.
Definition terminates (cost : R -> num) (t : triple) : Prop := exists fuel, forall u, bracket fuel cost t <> OutOfFuel u.
(** a cost function which is always a number *)
Definition total (f : R -> R) : R -> num := fun x => Some (f x).
