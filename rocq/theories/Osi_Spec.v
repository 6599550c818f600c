(** What a quadrature rule should compute, stated without the functions of [Osi_Model]. *)
From Coq Require Import QArith.
From Verif Require Import Prelude Cplx.
Open Scope Z_scope.

(** polynomials of degree at most three with complex coefficients, and their exact integral *)
Definition cubic (c0 c1 c2 c3 : cplx) (x : Q) : cplx :=
  (c0 + Cscale x c1 + Cscale (x * x) c2 + Cscale (x * x * x) c3)%C.
Definition antiderivative (c0 c1 c2 c3 : cplx) (x : Q) : cplx :=
  (Cscale x c0 + Cscale (x * x / 2) c1 + Cscale (x * x * x / 3) c2 + Cscale (x * x * x * x / 4) c3)%C.
Definition cubic_integral (c0 c1 c2 c3 : cplx) (a b : Q) : cplx :=
  (antiderivative c0 c1 c2 c3 b - antiderivative c0 c1 c2 c3 a)%C.

(** a function of the frequency, not of the representation of the fraction *)
Definition respects (f : Q -> cplx) : Prop := forall x y, (x == y)%Q -> (f x == f y)%C.

(** Simpson's rule on one interval, and along a chain of break points starting at [l] *)
Definition panel (f : Q -> cplx) (l r : Q) : cplx :=
  Cscale ((r - l) / 6) (f l + Cscale 4 (f ((l + r) / 2)%Q) + f r)%C.
Fixpoint composite (f : Q -> cplx) (l : Q) (xs : list Q) : cplx :=
  match xs with
  | [] => C0
  | r :: xs' => (panel f l r + composite f r xs')%C
  end.
(** the chain ends in b, and each of its intervals is the whole one halved some number of times *)
Fixpoint dyadic_chain (width l b : Q) (xs : list Q) : Prop :=
  match xs with
  | [] => (l == b)%Q
  | r :: xs' => (exists k : nat, (r - l == width / inject_Z (2 ^ Z.of_nat k))%Q)
                /\ dyadic_chain width r b xs'
  end.

(** trapezoidal rule along a chain of break points *)
Fixpoint trapezoids (f : Q -> cplx) (l : Q) (xs : list Q) : cplx :=
  match xs with
  | [] => C0
  | r :: xs' => (Cscale ((r - l) / 2) (f l + f r) + trapezoids f r xs')%C
  end.
