(** Specification for bubbles of symmetric vertices. *)
From Coq Require Import QArith.
From Verif Require Import Prelude Cplx Keld_Model Util_Spec Sym_Model Sym_Spec Tab_Model Tab_Spec Rd_Model Rd_Spec Dec_Model Bub_Model.
Open Scope Z_scope.

(** an integral over all frequencies *)
Record integral (J : (Q -> cplx) -> cplx) : Prop := {
  int_ext : forall f g, (forall v, f v == g v)%C -> (J f == J g)%C;
  int_opp : forall f, (J (fun v => - f v) == - J f)%C;
  int_conj : forall f, (J (fun v => Cconj (f v)) == Cconj (J f))%C;
  int_reflect : forall f, (J (fun v => f (- v)%Q) == J f)%C }.

(** propagators: the Keldysh component is imaginary (the advanced one is the conjugate of the retarded one in [Gmat]) *)
Definition antihermitian (g : prop) : Prop := forall v, (re (gK g v) == 0)%Q.
(** particle-hole symmetry *)
Definition ph_symmetric (g : prop) : Prop :=
  forall v, (gR g (- v)%Q == - Cconj (gR g v))%C /\ (gK g (- v)%Q == - gK g v)%C.
(** the functions depend on the value of the frequency only *)
Definition of_frequency (g : prop) : Prop :=
  (forall x y, (x == y)%Q -> (gR g x == gR g y)%C) /\ (forall x y, (x == y)%Q -> (gK g x == gK g y)%C).
Record lines_ok (g : prop) : Prop := { ok_frequency : of_frequency g; ok_conjugate : antihermitian g }.

(** a reader returns half h of a family, and the bare vertex of strength u *)
Definition reads (c : cfg) (u : Q) (G : family) (h : bool) (V : reader) : Prop :=
  (forall ch k s kl f l, klegs_ok kl -> s = 0 \/ s = 1 -> legs_are false ch f l ->
     (get_r (V s (kcode kl)) ch k f == G h ch k s kl l)%C) /\
  (forall s kl, klegs_ok kl -> s = 0 \/ s = 1 ->
     (irred (V s (kcode kl)) == irred_expanded (irred_initialize c (Cofq u)) s (kcode kl))%C).
(** a vertex that is its own mirror image *)
Definition self_mirror (G : family) : Prop := forall ch k s kl l, (G true ch k s kl l == G false ch k s kl l)%C.
(** the vertices of which all channels are used are their own mirror images *)
Definition operand_ok (st : symmtype) (G : family) : Prop := is_diff st = false -> self_mirror G.

(** the natural frequencies of four legs *)
Definition natural (ch : chan) (l : legs) : Q * Q * Q :=
  match ch with
  | Ca => (n2' l - n1 l, (n1' l + n2 l) / 2, (n2' l + n1 l) / 2)
  | Cp => (n1' l + n2' l, (n1' l - n2' l) / 2, (n1 l - n2 l) / 2)
  | Ct => (n1' l - n1 l, (n2' l + n2 l) / 2, (n1' l + n1 l) / 2)
  end%Q.
(** The family of the bubbles of a left vertex and a right vertex: half 1 is the bubble of their first halves; half 2, the
    mirror image, has the second half of the right vertex on the left and the second half of the left vertex on the right. *)
Definition bubble_family (J : (Q -> cplx) -> cplx) (pi : Q) (diff : bool) (g s : prop) (stL stR : symmtype)
    (VL VR : bool -> reader) : family := fun h ch k spin kl l =>
  if h then bubble_entry J pi k ch diff g s stR stL (VR true) (VL true) spin (kcode kl) (natural ch l)
  else bubble_entry J pi k ch diff g s stL stR (VL false) (VR false) spin (kcode kl) (natural ch l).
