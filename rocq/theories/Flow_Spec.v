(** Specifications for flow grids, independent of the model. *)
From Coq Require Import Reals List Sorting.Sorted Sorting.Permutation.
Import ListNotations.
Open Scope R_scope.

Definition decreasing (l : list R) : Prop := StronglySorted Rgt l.
Definition nonincreasing (l : list R) : Prop := StronglySorted Rge l.
Definition first_last (l : list R) (a b : R) : Prop := hd_error l = Some a /\ last l a = b.
(** leading elements before the first negative one *)
Fixpoint until_negative (l : list R) : list R :=
  match l with [] => [] | y :: r => if Rlt_dec y 0 then [] else y :: until_negative r end.
Definition at_most (b : R) (l : list R) : list R := filter (fun y => if Rle_dec y b then true else false) l.
Definition sumR (l : list R) : R := fold_right Rplus 0 l.
