(** Specification for bubbles of symmetric vertices in the Matsubara formalism at zero temperature. *)
From Coq Require Import QArith.
From Verif Require Import Prelude Cplx Keld_Model Util_Spec Sym_Model Sym_Spec Tab_Model Tab_Spec Rd_Model Rd_Spec Dec_Model Bub_Model Bub_Spec.
From Verif Require Mbu_Model.
Open Scope Z_scope.

(** A propagator at imaginary frequencies is conjugated when the frequency is reversed. With particle-hole symmetry it is imaginary and
    only its imaginary part is kept: a real odd function. *)
Definition line_ok (c : cfg) (g : Q -> cplx) : Prop :=
  (forall x y, (x == y)%Q -> (g x == g y)%C) /\
  forall v, if phs c then (im (g v) == 0)%Q /\ (g (- v)%Q == - g v)%C else (g (- v)%Q == Cconj (g v))%C.

(** without Keldysh structure all four indices are 1 *)
Definition k1111 : klegs := mkK 1 1 1 1.
(** a reader returns half h of a family, and the bare vertex of strength u with the sign of its spin component *)
Definition reads_matsubara (u : Q) (G : family) (h : bool) (V : reader) : Prop :=
  forall s, s = 0 \/ s = 1 ->
    (forall ch k f l, legs_are false ch f l -> (get_r (V s 0) ch k f == G h ch k s k1111 l)%C) /\
    (irred (V s 0) == Cofq (if s =? 0 then u else - u))%C.

(** the family of the bubbles of a left vertex and a right vertex, see [bubble_family]; there are the spin components 0 and 1 *)
Definition matsubara_family (c : cfg) (J : (Q -> cplx) -> cplx) (pi : Q) (diff : bool) (g s : Q -> cplx) (stL stR : symmtype)
    (VL VR : bool -> reader) : family := fun h ch k spin kl l =>
  if (spin =? 0) || (spin =? 1) then
    if h then Mbu_Model.bubble_entry c J pi k ch diff g s stR stL (VR true) (VL true) spin (natural ch l)
    else Mbu_Model.bubble_entry c J pi k ch diff g s stL stR (VL false) (VR false) spin (natural ch l)
  else C0.
