(** Specification: symmetries of self-energies and of the occupation. *)
From Coq Require Import QArith.
From Verif Require Import Prelude Cplx Keld_Model Sym_Model Fl_Model.
Open Scope Z_scope.

(** The Keldysh component is imaginary. With particle-hole symmetry the retarded component minus the Hartree value h is odd under
    frequency reversal and conjugation, and the Keldysh component is odd. *)
Record se_ok (c : cfg) (h : Q) (S : selfen) : Prop := {
  se_values : forall x y, (x == y)%Q -> (seR S x == seR S y)%C /\ (seK S x == seK S y)%C;
  se_imaginary : forall x, (re (seK S x) == 0)%Q;
  se_reversal : phs c = true -> forall x, (seR S (- x) - Cofq h == - Cconj (seR S x - Cofq h))%C /\ (seK S (- x) == - seK S x)%C }.
(** 1 - 2 f(v) for a chemical potential at the centre of the spectrum is odd; eps + h = 0: the level lies symmetrically *)
Definition half_filled (c : cfg) (p : params) (h : Q) : Prop :=
  (forall x y, (x == y)%Q -> (occ p x == occ p y)%Q) /\
  (phs c = true -> (eps p + h == 0)%Q /\ forall x, (occ p (- x) == - occ p x)%Q).

(** the inverse propagator *)
Definition inverse_propagator (p : params) (S : selfen) (v : Q) : cplx := Cplx (v - eps p - re (seR S v)) ((gam p + lam p) * (1 # 2) - im (seR S v)).
Definition nonzero (z : cplx) : Prop := ~ (re z * re z + im z * im z == 0)%Q.
Definition at_scale (l : Q) (p : params) : params := mkPar l (eps p) (gam p) (occ p).
(** equilibrium: the Keldysh component is (1 - 2 f) times the difference of retarded and advanced component *)
Definition equilibrium (p : params) (R K : Q -> cplx) : Prop := forall x, (K x == Cofq (occ p x) * (R x - Cconj (R x)))%C.
