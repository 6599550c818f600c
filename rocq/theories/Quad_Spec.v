From Coq Require Import Reals.
From Verif Require Import Prelude.
Open Scope R_scope.

(** polynomials by their coefficients, lowest first *)
Fixpoint poly (c : list R) (x : R) : R := match c with [] => 0 | a :: c' => a + x * poly c' x end.
(** the primitive which vanishes at 0: coefficients divided by 1, 2, 3, ... *)
Fixpoint divided (k : nat) (c : list R) : list R := match c with [] => [] | a :: c' => a / INR k :: divided (S k) c' end.
Definition primitive (c : list R) (x : R) : R := x * poly (divided 1 c) x.
Definition area (c : list R) (a b : R) : R := primitive c b - primitive c a.

(** the rules on an interval, by their nodes relative to the midpoint *)
Definition at_node (f : R -> R) (a b t : R) : R := f ((a + b) / 2 + t * ((b - a) / 2)).
Definition lobatto4 (f : R -> R) (a b : R) : R :=
  (b - a) / 12 * (f a + f b + 5 * (at_node f a b (- (1 / sqrt 5)) + at_node f a b (1 / sqrt 5))).
Definition kronrod7 (f : R -> R) (a b : R) : R :=
  (b - a) / 2940 * (77 * (f a + f b) + 432 * (at_node f a b (- sqrt (2 / 3)) + at_node f a b (sqrt (2 / 3)))
    + 625 * (at_node f a b (- (1 / sqrt 5)) + at_node f a b (1 / sqrt 5)) + 672 * f ((a + b) / 2)).
(** sum of a rule over the intervals between consecutive points *)
Fixpoint composite (rule : R -> R -> R) (a : R) (l : list R) : R := match l with [] => 0 | b :: l' => rule a b + composite rule b l' end.
Fixpoint increasing_from (a : R) (l : list R) : Prop := match l with [] => True | b :: l' => a < b /\ increasing_from b l' end.
(** points a = t0 < t1 < ... < tn = b, the list holds t1 ... tn *)
Definition partitions (a b : R) (l : list R) : Prop := increasing_from a l /\ last l a = b.
Definition bounded (f : R -> R) (a b M : R) : Prop := forall x, a <= x <= b -> Rabs (f x) <= M.
