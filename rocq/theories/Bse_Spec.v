(** The parquet equations and their derivative, stated without the functions of the model (only the data types of Mlp_Model are used). *)
From Coq Require Import QArith.
From Verif Require Import Prelude Mlp_Model.
Open Scope Z_scope.

Section Spec.
  Variables (A P : Type).
  Variables (zero : A) (add sub : A -> A -> A) (half : A -> A).
  Variables (prod : P -> channel -> A -> A -> A) (cross : channel -> channel -> A -> A) (mirror : channel -> A -> A).
  Notation vertex := (vertex A).

  (** Rules of calculation: an additive group with halves; connecting vertices is linear on both sides and associative; so is the change of channel linear. *)
  Record rules : Prop := {
    add_comm : forall x y, add x y = add y x;
    add_assoc : forall x y z, add x (add y z) = add (add x y) z;
    add_zero : forall x, add x zero = x;
    sub_self : forall x, sub x x = zero;
    half_add : forall x y, half (add x y) = add (half x) (half y);
    half_twice : forall x, half (add x x) = x;
    prod_add_l : forall p r x y z, prod p r (add x y) z = add (prod p r x z) (prod p r y z);
    prod_add_r : forall p r x y z, prod p r x (add y z) = add (prod p r x y) (prod p r x z);
    prod_zero_l : forall p r x, prod p r zero x = zero;
    prod_zero_r : forall p r x, prod p r x zero = zero;
    prod_assoc : forall p q r x y z, prod p r (prod q r x y) z = prod q r x (prod p r y z);
    cross_add : forall r s x y, cross r s (add x y) = add (cross r s x) (cross r s y);
    cross_zero : forall r s, cross r s zero = zero }.
  (** The symmetry that relates K2' to K2 reverses the order. *)
  Record mirrored : Prop := {
    mirror_add : forall r x y, mirror r (add x y) = add (mirror r x) (mirror r y);
    mirror_zero : forall r, mirror r zero = zero;
    mirror_half : forall r x, mirror r (half x) = half (mirror r x);
    mirror_twice : forall r x, mirror r (mirror r x) = x;
    mirror_prod : forall p r x y, mirror r (prod p r x y) = prod p r (mirror r y) (mirror r x) }.

  Definition physical (r : channel) : Prop := r <> Cother.
  Definition classes (v : vertex) (r : channel) : rvert A :=
    match r with Ca => va _ v | Cp => vp _ v | Ct => vt _ v | Cother => {| K1 := zero; K2 := zero; K2b := zero; K3 := zero |} end.
  (** the part reducible in channel r, the part irreducible in it, and the full vertex, in the parametrisation of channel r *)
  Definition reducible (v : vertex) (r : channel) : A := let x := classes v r in add (add (K1 _ x) (K2 _ x)) (add (K2b _ x) (K3 _ x)).
  Definition others (v : vertex) (r : channel) : A :=
    match r with
    | Ca => add (cross Cp Ca (reducible v Cp)) (cross Ct Ca (reducible v Ct))
    | Cp => add (cross Ca Cp (reducible v Ca)) (cross Ct Cp (reducible v Ct))
    | Ct => add (cross Ca Ct (reducible v Ca)) (cross Cp Ct (reducible v Cp))
    | Cother => zero
    end.
  Definition irreducible (v : vertex) (r : channel) : A := add (irr _ v) (others v r).
  Definition full (v : vertex) (r : channel) : A := add (irreducible v r) (reducible v r).

  (** *** Bethe-Salpeter equations: reducible part, and class by class according to whether an outer bubble ends at a bare vertex on its left and right *)
  Definition bethe_salpeter (p : P) (v : vertex) : Prop := forall r, physical r ->
    reducible v r = prod p r (irreducible v r) (full v r) /\ reducible v r = prod p r (full v r) (irreducible v r).
  (** parts of the full vertex that start or end with the bare vertex *)
  Definition starts_bare (v : vertex) (r : channel) : A := add (irr _ v) (add (K1 _ (classes v r)) (K2b _ (classes v r))).
  Definition ends_bare (v : vertex) (r : channel) : A := add (irr _ v) (add (K1 _ (classes v r)) (K2 _ (classes v r))).
  Definition starts_else (v : vertex) (r : channel) : A := add (others v r) (add (K2 _ (classes v r)) (K3 _ (classes v r))).
  Definition ends_else (v : vertex) (r : channel) : A := add (others v r) (add (K2b _ (classes v r)) (K3 _ (classes v r))).
  Definition four (a b c d : A) : rvert A := {| K1 := a; K2 := b; K2b := c; K3 := d |}.
  Definition left_solution (p : P) (v : vertex) : Prop := forall r, physical r ->
    classes v r = four (prod p r (irr _ v) (ends_bare v r)) (prod p r (others v r) (ends_bare v r))
                       (prod p r (irr _ v) (ends_else v r)) (prod p r (others v r) (ends_else v r)).
  Definition right_solution (p : P) (v : vertex) : Prop := forall r, physical r ->
    classes v r = four (prod p r (starts_bare v r) (irr _ v)) (prod p r (starts_else v r) (irr _ v))
                       (prod p r (starts_bare v r) (others v r)) (prod p r (starts_else v r) (others v r)).
  Definition solution (p : P) (v : vertex) : Prop := left_solution p v /\ right_solution p v.

  (** without K2' in memory: the symmetric vertex that is represented by [v] *)
  Definition completed (v : vertex) : vertex :=
    let c r x := four (K1 _ x) (K2 _ x) (mirror r (K2 _ x)) (K3 _ x) in
    {| irr := irr _ v; va := c Ca (va _ v); vp := c Cp (vp _ v); vt := c Ct (vt _ v) |}.
  Definition symmetric (v : vertex) : Prop := forall r, physical r ->
    mirror r (irr _ v) = irr _ v /\ mirror r (K1 _ (classes v r)) = K1 _ (classes v r) /\ mirror r (K2 _ (classes v r)) = K2b _ (classes v r) /\
    mirror r (K2b _ (classes v r)) = K2 _ (classes v r) /\ mirror r (K3 _ (classes v r)) = K3 _ (classes v r) /\ mirror r (others v r) = others v r.

  (** *** derivative of the Bethe-Salpeter equations: p' the derivative of the pair of propagators, di and dg those of the irreducible and the reducible part *)
  Definition derived_left (p p' : P) (v : vertex) (r : channel) (di dg : A) : Prop :=
    dg = add (add (prod p r di (full v r)) (prod p' r (irreducible v r) (full v r))) (prod p r (irreducible v r) (add di dg)).
  Definition derived_right (p p' : P) (v : vertex) (r : channel) (di dg : A) : Prop :=
    dg = add (add (prod p r (add di dg) (irreducible v r)) (prod p' r (full v r) (irreducible v r))) (prod p r (full v r) di).
End Spec.
