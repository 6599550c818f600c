From Coq Require Import Reals.
From Verif Require Import Prelude.
Open Scope R_scope.

(** integration routines that agree with the differences of a function F (a primitive of the integrand), with limits Fm, Fp *)
Definition exact_on (F : R -> R) (I : R -> R -> R) : Prop := forall a b, I a b = if Rlt_dec a b then F b - F a else 0.
Definition exact_tails (F : R -> R) (Fm Fp : R) (lower upper : R -> R) : Prop := (forall x, lower x = F x - Fm) /\ (forall x, upper x = Fp - F x).
Definition lipschitz_with (F : R -> R) (M : R) : Prop := forall x y, Rabs (F x - F y) <= M * Rabs (x - y).
(** smallest and largest of a list *)
Definition is_min (m : R) (l : list R) : Prop := In m l /\ forall x, In x l -> m <= x.
Definition is_max (m : R) (l : list R) : Prop := In m l /\ forall x, In x l -> x <= m.
(** intervals in increasing order without overlap *)
Fixpoint ordered_from (x : R) (l : list (R * R)) : Prop := match l with [] => True | (lo, hi) :: r => (lo < hi -> x <= lo) /\ ordered_from (if Rlt_dec lo hi then hi else x) r end.
(** sum over n = lo ... hi *)
Fixpoint sum_to (f : Z -> R) (lo : Z) (n : nat) : R := match n with O => 0 | S k => f lo + sum_to f (lo + 1) k end.
(** sum over s < n *)
Fixpoint sum_below (f : nat -> R) (n : nat) : R := match n with O => 0 | S k => sum_below f k + f k end.
