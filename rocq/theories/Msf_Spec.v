(** Specification: a vertex of numbers obeys the symmetries of the Matsubara formalism. *)
From Coq Require Import QArith.
From Verif Require Import Prelude Cplx Keld_Model Util_Spec Sym_Model Sym_Spec Tab_Model Tab_Spec Rd_Model Rd_Spec Dec_Model Bub_Model Bub_Spec Sf_Model Sf_Spec Msf_Model.
From Verif Require Mbu_Spec Mlp_Model.
Open Scope Z_scope.

(** the family on labelled legs of a vertex [v1] and its mirror image [v2]; spin components 0 and 1, no Keldysh structure *)
Definition on_mlegs (v1 v2 : vert) : family := fun h ch k s kl l =>
  if (s =? 0) || (s =? 1) then class_of (channel_of (if h then v2 else v1) ch) k s 0 (natural ch l) else C0.
(** The pair of a vertex and its mirror image obeys crossing, complex conjugation and frequency reversal, is real with particle-hole
    symmetry, depends on the values of the frequencies, and has a bare vertex of strength u. *)
Record mobeys (c : cfg) (u : Q) (v1 v2 : vert) : Prop := {
  mof_values : forall h ch k s f f', s = 0 \/ s = 1 ->
    (fst (fst f) == fst (fst f'))%Q /\ (snd (fst f) == snd (fst f'))%Q /\ (snd f == snd f')%Q ->
    (class_of (channel_of (if h : bool then v2 else v1) ch) k s 0 f == class_of (channel_of (if h then v2 else v1) ch) k s 0 f')%C;
  mobeys_physical : physical c false (on_mlegs v1 v2);
  mobeys_reversible : reversible c (on_mlegs v1 v2);
  mobeys_bare : forall (h : bool) s f, s = 0 \/ s = 1 ->
    (Mlp_Model.irr _ (if h then v2 else v1) s 0 f == Cofq (if s =? 0 then u else - u))%C }.
(** a vertex that is its own mirror image *)
Definition msymmetric (c : cfg) (u : Q) (v : vert) : Prop := mobeys c u v v.
Definition mpair_ok (c : cfg) (P : mpair) : Prop := Mbu_Spec.line_ok c (m_g P) /\ Mbu_Spec.line_ok c (m_s P).
