From Coq Require Import Reals.
From Verif Require Import Prelude Gf_Model.
Open Scope R_scope.

(** derivative of a function with complex values, defined around x *)
Definition derivative_at (f : R -> option comp) (x : R) (d : comp) : Prop :=
  exists g e, 0 < e /\ (forall y, Rabs (y - x) < e -> f y = Some (g y)) /\
    derivable_pt_lim (fun y => fst (g y)) x (fst d) /\ derivable_pt_lim (fun y => snd (g y)) x (snd d).
(** propagators along the flow: flow parameter y, everything else but the self-energy constant *)
Definition flowing (pr : R -> propagator) (v : R) (L : R) : Prop :=
  (forall y, Lambda (pr y) = y /\ epsilon (pr y) = epsilon (pr L) /\ Gamma (pr y) = Gamma (pr L) /\ Temp (pr y) = Temp (pr L)) /\
  (forall k, k = 0%Z \/ k = 1%Z -> derivative_at (fun y => Some (sigma (pr y) k v)) L (dsigma (pr L) k v)).
(** fluctuation-dissipation relation for a retarded and a Keldysh component, with distribution factor e *)
Definition fdr (e : R) (r k : comp) : Prop := k = (0, 2 * e * snd r).
(** retarded self-energies with non-positive imaginary part *)
Definition causal (p : propagator) (v : R) : Prop := snd (sigma p 0 v) <= 0.
