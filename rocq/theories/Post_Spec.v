(** What the evaluation of a result file is expected to do; written without reference to the loops of the model. *)
From Coq Require Import QArith.
From Verif Require Import Prelude.
Open Scope Z_scope.

(** exactly one entry for every number in [0, n), computed from the corresponding state *)
Definition one_for_each {S V} (f : S -> V) (st : Z -> S) (n : Z) (w : list (Z * V)) : Prop :=
  (forall i x, In (i, x) w <-> 0 <= i < n /\ x = f (st i)) /\ NoDup (map fst w).
(** entry of a vector *)
Definition entry {V} (l : list V) (i : Z) (x : V) : Prop := 0 <= i /\ nth_error l (Z.to_nat i) = Some x.
