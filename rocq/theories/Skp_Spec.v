(** Specification: integrals, vertices of the first class, analyticity. *)
From Coq Require Import QArith.
From Verif Require Import Prelude Cplx Keld_Model Keld_Spec.
Open Scope Z_scope.

(** linear functionals *)
Definition linear (J : (Q -> cplx) -> cplx) : Prop :=
  (forall f h, (forall x, (f x == h x)%C) -> (J f == J h)%C) /\
  (forall f h, (J (fun x => f x + h x) == J f + J h)%C) /\
  (forall z f, (J (fun x => z * f x) == z * J f)%C).
(** the two legs on the left and on the right of a vertex in a channel: true is the Keldysh index 2 *)
Definition left_even (ch : chan) (a b c d : bool) : bool := match ch with Ca => negb (xorb a d) | Cp => negb (xorb a b) | Ct => negb (xorb b d) end.
Definition right_even (ch : chan) (a b c d : bool) : bool := match ch with Ca => negb (xorb b c) | Cp => negb (xorb c d) | Ct => negb (xorb a c) end.
(** bare vertex plus K1 of the channel of the bubble: it does not depend on the integration frequency, and by causality there is no
    component with an even number of indices 2 on both sides *)
Definition first_class (ch : chan) (V : Q -> Z -> Z -> cplx) : Prop :=
  (forall x y s k, (V x s k == V y s k)%C) /\
  (forall x s a b c d, left_even ch a b c d = true -> right_even ch a b c d = true -> (V x s (code4 a b c d) == C0)%C).
(** closing the contour of the integration: two lines that are analytic in the same half plane of the integration frequency. In the
    channel p the second line runs backwards. *)
Definition closes (J : (Q -> cplx) -> cplx) (ch : chan) (g : prop) (w : Q) : Prop :=
  let R1 x := gR g (line1 ch w x) in let R2 x := gR g (line2 ch w x) in
  match ch with
  | Cp => (J (fun x => R1 x * Cconj (R2 x)) == C0)%C /\ (J (fun x => Cconj (R1 x) * R2 x) == C0)%C
  | _ => (J (fun x => R1 x * R2 x) == C0)%C /\ (J (fun x => Cconj (R1 x) * Cconj (R2 x)) == C0)%C
  end.
