(** What the self-energy loop is supposed to compute: one line joins an outgoing to an incoming leg of
    the vertex.  Legs carry a spin, a Keldysh index and a frequency (Keld_Spec.v, Util_Spec.v). *)
From Coq Require Import QArith.
From Verif Require Import Prelude Cplx Keld_Model Keld_Spec Util_Spec.
Open Scope Z_scope.

(** a vertex: spin component, frequencies of the legs (1',2'|1,2), Keldysh component *)
Definition vertex_legs := Z -> legs -> Z -> cplx.
Definition vertex_ok (Gam : vertex_legs) : Prop :=
  forall s l l' a b c d, s = 0 \/ s = 1 -> legs_eq l l' -> (Gam s l (code4 a b c d) == Gam s l' (code4 a b c d))%C.

(** which legs the line joins: above, from 2' to 2 with the external legs 1' and 1; or on the right,
    from 1' to 2 with the external legs 2' and 1 *)
Definition closed {A B} (right : bool) (V : A -> A -> A -> A -> B) (out inc x' x : A) : B :=
  if right then V x' out inc x else V out x' inc x.
Definition leg_freqs (right : bool) (v vp : Q) : legs := closed right mkLegs v v vp vp.

(** sum over the spin of the line; external spin up ([true]) *)
Definition spin_summed (right : bool) (Gam : vertex_legs) (l : legs) (k : Z) : cplx :=
  csum bits (fun s => closed right (full_spin (fun sp => Gam sp l)) true true s s k).
(** a line with the spin opposite (above) or equal (right) to the external one *)
Definition one_spin (right : bool) (Gam : vertex_legs) (l : legs) (k : Z) : cplx :=
  if right then full_spin (fun sp => Gam sp l) true true true true k
  else full_spin (fun sp => Gam sp l) true false true false k.

(** the integrand: Keldysh indices a' (outgoing) and a (incoming) of the self-energy; the line runs
    from x' to x *)
Definition contraction (right : bool) (W : legs -> Z -> cplx) (g : prop) (v vp : Q) (a' a : bool) : cplx :=
  csum bits (fun x => csum bits (fun x' =>
    (Gmat g vp x x' * W (leg_freqs right v vp) (closed right code4 a' a x' x))%C)).

(** the stored components: retarded (1|2), Keldysh (1|1) and (2|2); indices 1 = [false], 2 = [true] *)
Definition component (k : Z) : option (bool * bool) :=
  if k =? 0 then Some (false, true) else if k =? 1 then Some (false, false)
  else if k =? 2 then Some (true, true) else None.

(** an integral over all frequencies with a prefactor *)
Definition integral_ok (J : (Q -> cplx) -> cplx) : Prop :=
  (forall f h, (forall x, (f x == h x)%C) -> (J f == J h)%C) /\
  (forall f h, (J (fun x => f x + h x)%C == J f + J h)%C) /\
  (forall q f, (J (fun x => Cscale q (f x)) == Cscale q (J f))%C) /\
  (forall f, (J (fun x => f (- x)%Q) == J f)%C).
(** the prefactor is purely imaginary *)
Definition integral_imaginary (J : (Q -> cplx) -> cplx) : Prop :=
  forall f, (J (fun x => Cconj (f x)) == - Cconj (J f))%C.

(** complex conjugation exchanges incoming and outgoing legs, with the sign (-1)^(1 + number of
    indices 2) *)
Definition in_out (l : legs) : legs := mkLegs (n1 l) (n2 l) (n1' l) (n2' l).
Definition conj_sign (a b c d : bool) : Q := if xorb (xorb a b) (xorb c d) then 1%Q else (-1)%Q.
Definition conj_symmetric (Gam : vertex_legs) : Prop := forall s l a b c d, s = 0 \/ s = 1 -> conserved l ->
  (Gam s (in_out l) (code4 c d a b) == Cscale (conj_sign a b c d) (Cconj (Gam s l (code4 a b c d))))%C.

(** exchange of the two particles *)
Definition particle_exchange (l : legs) : legs := mkLegs (n2' l) (n1' l) (n2 l) (n1 l).
Definition exchange_symmetric (Gam : vertex_legs) : Prop := forall s l a b c d, s = 0 \/ s = 1 -> conserved l ->
  (Gam s (particle_exchange l) (code4 b a d c) == Gam s l (code4 a b c d))%C.
(** the Keldysh propagator is anti-hermitian *)
Definition antihermitian (g : prop) : Prop := forall v, (Cconj (gK g v) == - gK g v)%C.

(** how the vertex appears to the code: natural parametrisation, at w = 0, of the channel in which the
    line is closed; in the contour basis the components are rotated *)
Definition seen (contour right : bool) (Gam : vertex_legs) (V : chan -> Z -> Z -> Q -> Q -> cplx) : Prop :=
  let ch := if right then Ca else Ct in
  forall s v v' a b c d, s = 0 \/ s = 1 ->
    (V ch s (code4 a b c d) v v' ==
     if contour then Cscale (1 # 4) (to_contour (Gam s (legs_of ch (0%Q, v, v'))) a b c d)
     else Gam s (legs_of ch (0%Q, v, v')) (code4 a b c d))%C.
