From Coq Require Import QArith.
From Verif Require Import Prelude Idx_Spec.
Open Scope Z_scope.

(** a polynomial of degree at most four and its derivative *)
Definition quartic := (Q * Q * Q * Q * Q)%type.
Definition peval (p : quartic) (x : Q) : Q :=
  let '(c0, c1, c2, c3, c4) := p in (c0 + c1 * x + c2 * x ^ 2 + c3 * x ^ 3 + c4 * x ^ 4)%Q.
Definition pderiv (p : quartic) (x : Q) : Q :=
  let '(c0, c1, c2, c3, c4) := p in (c1 + 2 * c2 * x + 3 * c3 * x ^ 2 + 4 * c4 * x ^ 3)%Q.

(** the grid points are strictly increasing *)
Definition increasing (xs : list Q) : Prop :=
  forall i j a b, (i < j)%nat -> nth_error xs i = Some a -> nth_error xs j = Some b -> (a < b)%Q.

(** element of a flat array at an index tuple *)
Definition elt (data : list Q) (dims : list Z) (u : list Z) : option Q := nth_error data (Z.to_nat (row_major u dims)).

(** value of an optional number (used where it is known to be present) *)
Definition oeq (o : option Q) (q : Q) : Prop := exists v, o = Some v /\ (v == q)%Q.

(** no two nodes coincide *)
Definition distinct (xs : list Q) : Prop :=
  forall i j a b, nth_error xs i = Some a -> nth_error xs j = Some b -> (a == b)%Q -> i = j.
