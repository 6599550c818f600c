(** Version 3 of the Schwinger-Dyson equation and the derivative of the self-energy with it:
    perturbation_theory_and_parquet/parquet_solver.hpp:251-292, 352-375.
    Keldysh basis, DEBUG_SYMMETRIES 1, MAX_DIAG_CLASS 3, no SBE decomposition (the defaults); the loop is the one of Fl_Model.
    Simplified: K2b *= 0.5 (263) changes a class that is set to zero in integrands two lines later and is left out; both halves of the
    vertex of type non_symmetric_diffleft are the same, so it is read like a symmetric one. *)
From Coq Require Import QArith.
From Verif Require Import Prelude Cplx Keld_Model Sym_Model Tab_Model Rd_Model Dec_Model Bub_Model Sf_Model Sf_Spec Lop_Model Fl_Model Sde_Model.
From Verif Require Mlp_Model Bse_Model.
Open Scope Z_scope.

Section Sde3.
  Variables (Jl : (Q -> cplx) -> cplx) (vectorised : bool).
  (** 256-270: the bare vertex is not among the parts that are set to zero *)
  Definition flags_v3 (ch : chan) : flags :=
    mkFl false (fun r k => match k with k2b | k3 => true | k1 | k2 => other_than ch r end).
  (** 250-279; None: the assertion in 252 fails *)
  Definition compute_SDE_impl_v3 (version : bool) (ch : chan) (Gamma : vert) (G : prop) : option selfen :=
    match version, ch with
    | false, Ct | true, Ca => None
    | _, _ => Some (loop_of Jl vectorised version false symmetric_full (masked (flags_v3 ch) Gamma) G)
    end.
  Definition mean (x y : option selfen) : option selfen :=
    match x, y with Some x, Some y => Some (sscale (1 # 2) (sadd x y)) | _, _ => None end.
  (** 282-292; the contribution of the t channel is computed, but not used *)
  Definition compute_SDE_v3 (Gamma : vert) (G : prop) : option selfen :=
    match compute_SDE_impl_v3 true Ct Gamma G with
    | Some _ => mean (compute_SDE_impl_v3 false Ca Gamma G) (compute_SDE_impl_v3 false Cp Gamma G)
    | None => None
    end.
  (** 352-375: vertex and its derivative, propagator and its derivative *)
  Definition compute_diff_SDE (Gamma dGamma : vert) (G dG : prop) : option selfen :=
    match compute_SDE_impl_v3 false Ca Gamma dG, compute_SDE_impl_v3 false Cp Gamma dG,
          compute_SDE_impl_v3 false Ca dGamma G, compute_SDE_impl_v3 false Cp dGamma G with
    | Some a1, Some p1, Some a2, Some p2 => Some (sscale (1 # 2) (sadd (sadd (sadd a1 p1) a2) p2))
    | _, _, _, _ => None
    end.
End Sde3.
