(** Specification: a vertex of numbers obeys the symmetries. *)
From Coq Require Import QArith.
From Verif Require Import Prelude Cplx Keld_Model Util_Spec Sym_Model Sym_Spec Tab_Model Tab_Spec Rd_Model Rd_Spec Dec_Model Bub_Model Bub_Spec Sf_Model.
From Verif Require Mlp_Model.
Open Scope Z_scope.

Notation vert := (Mlp_Model.vertex data).
Definition class_of (x : Mlp_Model.rvert data) (k : kcl) : data :=
  match k with k1 => Mlp_Model.K1 _ x | k2 => Mlp_Model.K2 _ x | k2b => Mlp_Model.K2b _ x | k3 => Mlp_Model.K3 _ x end.
Definition channel_of (v : vert) (ch : chan) : Mlp_Model.rvert data :=
  match ch with Ca => Mlp_Model.va _ v | Cp => Mlp_Model.vp _ v | Ct => Mlp_Model.vt _ v end.
(** the family on labelled legs of a vertex [v1] and its mirror image [v2] *)
Definition on_legs (v1 v2 : vert) : family := fun h ch k s kl l =>
  class_of (channel_of (if h then v2 else v1) ch) k s (kcode kl) (natural ch l).
(** The pair of a vertex and its mirror image obeys crossing, complex conjugation and, with particle-hole symmetry, frequency
    reversal, depends on the values of the frequencies, and has a bare vertex of strength u. *)
Record obeys (c : cfg) (u : Q) (v1 v2 : vert) : Prop := {
  of_values : forall h ch k s kl f f', klegs_ok kl -> s = 0 \/ s = 1 ->
    (fst (fst f) == fst (fst f'))%Q /\ (snd (fst f) == snd (fst f'))%Q /\ (snd f == snd f')%Q ->
    (class_of (channel_of (if h : bool then v2 else v1) ch) k s (kcode kl) f ==
     class_of (channel_of (if h then v2 else v1) ch) k s (kcode kl) f')%C;
  obeys_physical : physical c false (on_legs v1 v2);
  obeys_reversible : reversible c (on_legs v1 v2);
  obeys_bare : forall (h : bool) s kl f, klegs_ok kl -> s = 0 \/ s = 1 ->
    (Mlp_Model.irr _ (if h then v2 else v1) s (kcode kl) f == irred_expanded (irred_initialize c (Cofq u)) s (kcode kl))%C }.
(** a vertex that is its own mirror image *)
Definition symmetric (c : cfg) (u : Q) (v : vert) : Prop := obeys c u v v.
(** propagators: conjugate advanced component, particle-hole symmetry where it is assumed *)
Definition pair_ok (c : cfg) (P : pair) : Prop :=
  lines_ok (p_g P) /\ lines_ok (p_s P) /\ (phs c = true -> ph_symmetric (p_g P) /\ ph_symmetric (p_s P)).
