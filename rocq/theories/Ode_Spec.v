(** Notions used in the statements about step control and drivers, independent of the model. *)
From Coq Require Import Reals List.
Import ListNotations.
Open Scope R_scope.

(** [x] lies between [a] and [b] (in either order) *)
Definition between (a b x : R) : Prop := Rmin a b <= x <= Rmax a b.
(** [s] points in the direction of [t] or is zero, and is not longer *)
Definition shortened (t s : R) : Prop := between 0 t s.
(** consecutive values, starting from [x], never move away from [b] and never pass it *)
Fixpoint approaches (b x : R) (l : list R) : Prop := match l with [] => True | y :: r => between x b y /\ approaches b y r end.
(** a parametrisation Lambda(t), given by [tof] and [lam], that is a monotone bijection between the values of Lambda from [a] to [b] and an
    interval of t; [None] stands for not-a-number *)
Definition param_ok (tof lam : R -> option R) (a b : R) : Prop :=
  (forall L, between a b L -> exists t, tof L = Some t /\ lam t = Some L) /\
  (forall L L' t t' s, between a b L -> between a b L' -> tof L = Some t -> tof L' = Some t' -> between t t' s ->
     exists M, lam s = Some M /\ between L L' M).
