(** Order conditions for Runge-Kutta methods in terms of rooted trees (Butcher), independent of the model. *)
From Coq Require Import List QArith Arith.
Import ListNotations.
Open Scope Q_scope.

Inductive tree := Node (children : list tree).
Fixpoint order (t : tree) : nat := match t with Node ts => S (fold_right (fun t n => order t + n)%nat 0%nat ts) end.
(** density *)
Fixpoint gamma (t : tree) : Z :=
  match t with Node ts => Z.of_nat (order (Node ts)) * fold_right (fun t n => gamma t * n)%Z 1%Z ts end.
Definition sumQ (f : nat -> Q) (n : nat) : Q := fold_right (fun i s => f i + s) 0 (seq 0 n).
(** inner weight of a tree at stage [i] of a method with [s] stages and matrix [A] *)
Fixpoint inner (s : nat) (A : nat -> nat -> Q) (t : tree) (i : nat) : Q :=
  match t with Node ts => fold_right (fun t p => sumQ (fun j => A i j * inner s A t j) s * p) 1 ts end.
Definition weight (s : nat) (A : nat -> nat -> Q) (b : nat -> Q) (t : tree) : Q := sumQ (fun i => b i * inner s A t i) s.
(** the method is of order [p] *)
Definition has_order (s : nat) (A : nat -> nat -> Q) (b : nat -> Q) (p : nat) : Prop :=
  forall t, (order t <= p)%nat -> weight s A b t * inject_Z (gamma t) == 1.

(** polynomials and their integrals *)
Fixpoint poly (c : list Q) (t : Q) : Q := match c with [] => 0 | a :: r => a + t * poly r t end.
Fixpoint antiderivative (c : list Q) (n : Z) : list Q :=
  match c with [] => [] | a :: r => (a / inject_Z n) :: antiderivative r (n + 1)%Z end.
Definition integral (c : list Q) (a b : Q) : Q := poly (0 :: antiderivative c 1) b - poly (0 :: antiderivative c 1) a.
