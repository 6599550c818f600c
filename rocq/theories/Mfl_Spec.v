(** Specification: symmetries of self-energies, propagators and integrals at imaginary frequencies. *)
From Coq Require Import QArith.
From Verif Require Import Prelude Cplx.
Open Scope Z_scope.

(** A function at the imaginary frequencies of a set D is conjugated when the frequency is reversed; with particle-hole symmetry ([ph])
    it is imaginary and only its imaginary part is kept: a real odd function. *)
Definition conjugated (D : Q -> Prop) (ph : bool) (g : Q -> cplx) : Prop :=
  (forall x y, D x -> (x == y)%Q -> (g x == g y)%C) /\
  forall v, D v -> if ph then (im (g v) == 0)%Q /\ (g (- v)%Q == - g v)%C else (g (- v)%Q == Cconj (g v))%C.
(** Integrals over the loop frequency for an external frequency v; the integration range may depend on |v| and be split at v. *)
Record loop_integral (D : Q -> Prop) (Jl : Q -> (Q -> cplx) -> cplx) : Prop := {
  li_ext : forall v v' f g, D v -> (v == v')%Q -> (forall x x', D x -> (x == x')%Q -> f x == g x')%C -> (Jl v f == Jl v' g)%C;
  li_opp : forall v f, (Jl v (fun x => - f x) == - Jl v f)%C;
  li_conj : forall v f, (Jl v (fun x => Cconj (f x)) == Cconj (Jl v f))%C;
  li_reflect : forall v f g, D v -> (forall x x', D x -> (x' == - x)%Q -> f x == g x')%C -> (Jl (- v)%Q f == Jl v g)%C }.
Definition all_frequencies (x : Q) : Prop := True.
