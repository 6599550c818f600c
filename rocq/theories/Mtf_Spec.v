(** Specification: a vertex of numbers obeys the symmetries of the Matsubara formalism at finite temperature. *)
From Coq Require Import QArith.
From Verif Require Import Prelude Cplx Keld_Model Util_Spec Sym_Model Sym_Spec Tab_Model Tab_Spec Rd_Model Rd_Spec Dec_Model Bub_Model Bub_Spec Sf_Model Sf_Spec Msf_Model Mbt_Spec.
From Verif Require Mlp_Model.
Open Scope Z_scope.

(** the values on labelled legs of a vertex [v1] and its mirror image [v2] *)
Definition on_tlegs (v1 v2 : vert) : vertex_T := fun h ch k s l => class_of (channel_of (if h then v2 else v1) ch) k s 0 (natural_T ch l).
(** The pair of a vertex and its mirror image obeys crossing, complex conjugation and frequency reversal at the Matsubara frequencies, is
    real with particle-hole symmetry, depends on the values of the frequencies, and has a bare vertex of strength u. *)
Record tobeys (ph : bool) (u : Q) (v1 v2 : vert) : Prop := {
  tof_values : forall h ch k s w v v' w' y y', s = 0 \/ s = 1 -> bosonic w -> fermionic v -> fermionic v' ->
    (w == w')%Q -> (v == y)%Q -> (v' == y')%Q ->
    (class_of (channel_of (if h : bool then v2 else v1) ch) k s 0 (w, v, v') == class_of (channel_of (if h then v2 else v1) ch) k s 0 (w', y, y'))%C;
  tobeys_symmetric : symmetric_T ph (on_tlegs v1 v2);
  tobeys_reversible : reversible_T (on_tlegs v1 v2);
  tobeys_bare : forall (h : bool) s f, s = 0 \/ s = 1 ->
    (Mlp_Model.irr _ (if h then v2 else v1) s 0 f == Cofq (if s =? 0 then u else - u))%C }.
(** a vertex that is its own mirror image *)
Definition tsymmetric (ph : bool) (u : Q) (v : vert) : Prop := tobeys ph u v v.
Definition tpair_ok (ph : bool) (P : mpair) : Prop := line_T ph (m_g P) /\ line_T ph (m_s P).
