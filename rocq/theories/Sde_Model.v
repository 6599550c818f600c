(** The Schwinger-Dyson equation for the self-energy: perturbation_theory_and_parquet/parquet_solver.hpp:85-253, 292-303 (versions 1 and 2),
    with the parts of a vertex that are set to zero in integrands (vertex.hpp:1061-1076, 1100-1107).
    Keldysh basis, DEBUG_SYMMETRIES 1, MAX_DIAG_CLASS 3, no SBE decomposition (the defaults); bubbles of Sf_Model, loop of Fl_Model.
    Simplified: as there; the Hartree term (305-314) is left out (C89, C106). *)
From Coq Require Import QArith.
From Verif Require Import Prelude Cplx Keld_Model Sym_Model Tab_Model Rd_Model Dec_Model Bub_Model Sf_Model Sf_Spec Lop_Model Fl_Model.
From Verif Require Mlp_Model Bse_Model.
Open Scope Z_scope.

(** vertex.hpp:1061-1076: which parts are set to zero *)
Record flags := mkFl { no_gamma0 : bool; vanishing : chan -> kcl -> bool }.
Definition no_flags : flags := mkFl false (fun _ _ => false).
Definition swap_a_and_t (f : flags) : flags :=
  mkFl (no_gamma0 f) (fun r => vanishing f (match r with Ca => Ct | Ct => Ca | Cp => Cp end)).
(** 1100-1107: what is left of the vertex in an integrand *)
Definition masked (f : flags) (v : vert) : vert :=
  let x r := let y := channel_of v r in let keep k := if vanishing f r k then dzero else class_of y k in
    {| Mlp_Model.K1 := keep k1; Mlp_Model.K2 := keep k2; Mlp_Model.K2b := keep k2b; Mlp_Model.K3 := keep k3 |} in
  {| Mlp_Model.irr := if no_gamma0 f then dzero else Mlp_Model.irr _ v; Mlp_Model.va := x Ca; Mlp_Model.vp := x Cp; Mlp_Model.vt := x Ct |}.
Definition other_than (ch r : chan) : bool := match ch, r with Ca, Ca | Cp, Cp | Ct, Ct => false | _, _ => true end.

Section Sde.
  Variables (c : cfg) (J Jl : (Q -> cplx) -> cplx) (pi : Q) (vectorised : bool) (U : Q).
  (** bubble_function with two propagators G and without derivative *)
  Definition bubble_in (r : Mlp_Model.channel) (v1 v2 : vert) (G : prop) : vert :=
    Bse_Model.bubble data pair dzero dadd (product J pi) cross no_mirror true (Mlp_Model.vzero data dzero)
      (Mlp_Model.Full _ v1) (Mlp_Model.Full _ v2) (mkP false G G) r.
  Definition channel_name (ch : chan) : Mlp_Model.channel := match ch with Ca => Mlp_Model.Ca | Cp => Mlp_Model.Cp | Ct => Mlp_Model.Ct end.
  Definition vadd : vert -> vert -> vert := Mlp_Model.vadd data dadd.
  (** 91-95 *)
  Definition bare_vertex : vert :=
    Bse_Model.initialize data (lift c) (Mlp_Model.vzero data dzero) (if keldysh c && negb (contour c) then - U / 2 else - U)%Q.
  (** 99-132 *)
  Definition sde_bubble (ch : chan) (f : flags) (Gamma : vert) (G : prop) : vert :=
    let now := masked f Gamma in let swapped := masked (swap_a_and_t f) Gamma in
    let bubble_r := bubble_in (channel_name ch) bare_vertex now G in
    let bubble_l := bubble_in (channel_name ch) now bare_vertex G in
    let '(bubble_r, bubble_l) := match ch with
      | Ct => (vadd bubble_r (bubble_in Mlp_Model.Ca bare_vertex swapped G), vadd bubble_l (bubble_in Mlp_Model.Ca swapped bare_vertex G))
      | Ca => (vadd bubble_r (bubble_in Mlp_Model.Ct bare_vertex swapped G), vadd bubble_l (bubble_in Mlp_Model.Ct swapped bare_vertex G))
      | Cp => (bubble_r, bubble_l)
      end in
    Mlp_Model.vhalf data dhalf (vadd bubble_r bubble_l).
  (** 134-144 *)
  Definition loop_flags (ch : chan) : flags := mkFl true (fun r k => match k with k3 => true | _ => other_than ch r end).
  (** 88-151 *)
  Definition compute_SDE_impl (ch : chan) (f : flags) (Gamma : vert) (G : prop) : selfen :=
    loop_of Jl vectorised (match ch with Ct => true | _ => false end) false symmetric_full (masked (loop_flags ch) (sde_bubble ch f Gamma G)) G.
  (** 154-173 *)
  Definition compute_SDE_impl_v1 (ch : chan) (Gamma : vert) (G : prop) : selfen := compute_SDE_impl ch (mkFl false (fun r _ => other_than ch r)) Gamma G.
  (** 179-202; the vertex of Psi_0 is the bare one *)
  Definition compute_SDE_v1 (Gamma : vert) (G : prop) : selfen :=
    ssub (sadd (sadd (compute_SDE_impl_v1 Ca Gamma G) (compute_SDE_impl_v1 Cp Gamma G)) (compute_SDE_impl_v1 Ct Gamma G))
         (sscale 2 (compute_SDE_impl_v1 Ca bare_vertex G)).
  (** 214-226 *)
  Definition compute_SDE_impl_v2 (Gamma : vert) (G : prop) : selfen * selfen * selfen :=
    let a := compute_SDE_impl Ca no_flags Gamma G in
    let p := compute_SDE_impl Cp no_flags Gamma G in
    (sscale (1 # 2) (sadd a p), a, p).
  (** 292-303: result and the difference that is printed *)
  Definition compute_SDE_v2 (Gamma : vert) (G : prop) : selfen * selfen :=
    let '(s, a, p) := compute_SDE_impl_v2 Gamma G in (s, ssub a p).
End Sde.
