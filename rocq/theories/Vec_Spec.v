From Coq Require Import QArith Qabs.
From Verif Require Import Prelude Cplx Vec_Model.

(** [out] has the length of [l] and its i-th element is [f] of the i-th element of [l] *)
Definition pointwise {A B} (f : A -> B) (l : list A) (out : list B) : Prop :=
  length out = length l /\ forall i a, nth_error l i = Some a -> nth_error out i = Some (f a).
Definition pointwise2 {A B D} (f : A -> B -> D) (l : list A) (r : list B) (out : list D) : Prop :=
  length out = length l /\
  forall i a b, nth_error l i = Some a -> nth_error r i = Some b -> nth_error out i = Some (f a b).

(** position meant by an index that counts from the end if negative *)
Definition from_end (n i : Z) : Z := if i <? 0 then n + i else i.
