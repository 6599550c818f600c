(** Schwinger-Dyson equation and parquet iteration in the Matsubara formalism at zero temperature: as Sde_Model (parquet_solver.hpp:85-253,
    292-303) and Pit_Model (305-345, 478-492, 604-605), with the bubbles of Msf_Model and loop and propagators of Mfl_Model.
    Simplified: as there; versions 1 and 2; a self-energy is the value that valsmooth returns, stored value plus asymptotic value
    (selfenergy.hpp:207-226). With particle-hole symmetry the stored value is the imaginary part. *)
From Coq Require Import QArith.
From Verif Require Import Prelude Cplx Keld_Model Sym_Model Tab_Model Rd_Model Dec_Model Bub_Model Sf_Model Sf_Spec Lop_Model Msf_Model Mfl_Model.
From Verif Require Mlp_Model Bse_Model Sde_Model Pit_Model.
Open Scope Z_scope.
Import Sde_Model (flags, no_flags, mkFl, swap_a_and_t, masked, other_than, channel_name, bare_vertex, loop_flags).

Section Sde.
  Variables (c : cfg) (J : (Q -> cplx) -> cplx) (Jl : Q -> (Q -> cplx) -> cplx) (pi U : Q).
  Definition mbubble_in (r : Mlp_Model.channel) (v1 v2 : vert) (G : mself) : vert :=
    Bse_Model.bubble data mpair dzero dadd (mproduct c J pi) cross no_mirror true (Mlp_Model.vzero data dzero)
      (Mlp_Model.Full _ v1) (Mlp_Model.Full _ v2) (mkM false G G) r.
  Notation vadd := (Mlp_Model.vadd data dadd).
  (** 91-132 *)
  Definition msde_bubble (ch : chan) (f : flags) (Gamma : vert) (G : mself) : vert :=
    let now := masked f Gamma in let swapped := masked (swap_a_and_t f) Gamma in let bare := bare_vertex c U in
    let bubble_r := mbubble_in (channel_name ch) bare now G in
    let bubble_l := mbubble_in (channel_name ch) now bare G in
    let '(bubble_r, bubble_l) := match ch with
      | Ct => (vadd bubble_r (mbubble_in Mlp_Model.Ca bare swapped G), vadd bubble_l (mbubble_in Mlp_Model.Ca swapped bare G))
      | Ca => (vadd bubble_r (mbubble_in Mlp_Model.Ct bare swapped G), vadd bubble_l (mbubble_in Mlp_Model.Ct swapped bare G))
      | Cp => (bubble_r, bubble_l)
      end in
    Mlp_Model.vhalf data dhalf (vadd bubble_r bubble_l).
  (** 88-151 *)
  Definition mcompute_SDE_impl (ch : chan) (f : flags) (Gamma : vert) (G : mself) : mself :=
    loop_of Jl false (phs c) (match ch with Ct => true | _ => false end) false symmetric_full (masked (loop_flags ch) (msde_bubble ch f Gamma G)) G.
  (** 154-173 *)
  Definition mcompute_SDE_impl_v1 (ch : chan) (Gamma : vert) (G : mself) : mself := mcompute_SDE_impl ch (mkFl false (fun r _ => other_than ch r)) Gamma G.
  (** 179-202 *)
  Definition mcompute_SDE_v1 (Gamma : vert) (G : mself) : mself :=
    msub_ (madd_ (madd_ (mcompute_SDE_impl_v1 Ca Gamma G) (mcompute_SDE_impl_v1 Cp Gamma G)) (mcompute_SDE_impl_v1 Ct Gamma G))
          (mscale_ 2 (mcompute_SDE_impl_v1 Ca (bare_vertex c U) G)).
  (** 214-226, 292-303: result and the difference that is printed *)
  Definition mcompute_SDE_v2 (Gamma : vert) (G : mself) : mself * mself :=
    let a := mcompute_SDE_impl Ca no_flags Gamma G in
    let p := mcompute_SDE_impl Cp no_flags Gamma G in
    (mscale_ (1 # 2) (madd_ a p), msub_ a p).
  (** selfenergy.hpp:159-163 *)
  Definition minitialized (h : Q) (s : mself) : mself := fun x => (s x + Cofq h)%C.
  Variables (p : mparams) (hartree : mself -> Q).
  (** 325-350 *)
  Definition mcompute_SDE (version : Z) (Gamma : vert) (S : mself) : mself :=
    let G := GM p S in
    minitialized (if phs c then U / 2 else hartree S)%Q (if version =? 1 then mcompute_SDE_v1 Gamma G else fst (mcompute_SDE_v2 Gamma G)).
  (** 478-492 *)
  Definition mparquet_iteration (version : Z) (x : vert * mself) : vert * mself :=
    let G := GM p (snd x) in (matsubara_parquet c J pi U (fst x) (mkM false G G), mcompute_SDE version (fst x) (snd x)).
  (** 604-605, USE_ANDERSON_ACCELERATION 0 *)
  Definition mplain_step (version : Z) (mixing : Q) (x : vert * mself) : vert * mself :=
    let y := mparquet_iteration version x in
    (vadd (Pit_Model.vscale mixing (fst y)) (Pit_Model.vscale (1 - mixing) (fst x)), madd_ (mscale_ mixing (snd y)) (mscale_ (1 - mixing) (snd x))).
  Definition mplain_solver (version : Z) (mixings : list Q) (x : vert * mself) : vert * mself := fold_left (fun x m => mplain_step version m x) mixings x.
End Sde.
