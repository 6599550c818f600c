(** The multiloop right-hand side with numbers for vertex and self-energy: the loop (Lop_Model) closes the vertices of Sf_Model, its
    result enters the propagators of the next evaluation.
    Keldysh basis, DEBUG_SYMMETRIES 1, REG 2, equilibrium, Katanin substitution, MAX_DIAG_CLASS 3, no SBE decomposition (the defaults).
    Simplified: self-energies are known at all frequencies (no interpolation) and include the asymptotic value, so that its separation at
    the end of loop() (C106) is not seen; division by zero gives zero instead of an infinite value. *)
From Coq Require Import QArith.
From Verif Require Import Prelude Cplx Keld_Model Sym_Model Tab_Model Rd_Model Dec_Model Bub_Model Sf_Model Sf_Spec Lop_Model.
From Verif Require Mlp_Model Bse_Model.
Open Scope Z_scope.

Record selfen := mkS { seR : Q -> cplx; seK : Q -> cplx }.
(** selfenergy.hpp operators *)
Definition sadd (x y : selfen) : selfen := mkS (fun v => (seR x v + seR y v)%C) (fun v => (seK x v + seK y v)%C).
Definition sscale (q : Q) (x : selfen) : selfen := mkS (fun v => Cscale q (seR x v)) (fun v => Cscale q (seK x v)).
Definition ssub (x y : selfen) : selfen := sadd x (sscale (-1) y).

(** ** propagator.hpp (Gf_Model) with rational numbers; [occ v]: Eff_fac(v, T) *)
Record params := mkPar { lam : Q; eps : Q; gam : Q; occ : Q -> Q }.
Section Propagators.
  Variable p : params.
  (** 665-670 GR_REG2 *)
  Definition GR (S : selfen) (v : Q) : cplx :=
    (C1 / (Cofq (v - eps p) + Ci * Cofq (gam p * (1 # 2)) + Ci * Cofq (lam p * (1 # 2)) - seR S v))%C.
  (** 242-252 *)
  Definition GK (S : selfen) (v : Q) : cplx := (Ci * Cofq (occ p v * 2 * im (GR S v)))%C.
  (** 680-690 SR_REG2; 285-291 *)
  Definition SR (S : selfen) (v : Q) : cplx := (Cofq (- (1 # 2)) * Ci * GR S v * GR S v)%C.
  Definition SK (S : selfen) (v : Q) : cplx := (Ci * Cofq (occ p v * 2 * im (SR S v)))%C.
  (** 320-337 *)
  Definition Katanin_R (S dS : selfen) (v : Q) : cplx := (GR S v * seR dS v * GR S v)%C.
  Definition Katanin_K (S dS : selfen) (v : Q) : cplx :=
    (GR S v * seR dS v * GK S v + GR S v * seK dS v * Cconj (GR S v) + GK S v * Cconj (seR dS v) * Cconj (GR S v))%C.
  (** types 'g', 's', 'e', 'k' *)
  Definition prop_g (S : selfen) : prop := Prop_ (GR S) (GK S).
  Definition prop_s (S : selfen) : prop := Prop_ (SR S) (SK S).
  Definition prop_e (S dS : selfen) : prop := Prop_ (Katanin_R S dS) (Katanin_K S dS).
  Definition prop_k (S dS : selfen) : prop :=
    Prop_ (fun v => (SR S v + Katanin_R S dS v)%C) (fun v => (SK S v + Katanin_K S dS v)%C).
End Propagators.

(** ** loop() on a vertex of numbers *)
(** the vertex of one spin and Keldysh component after symmetry_expand *)
Definition expanded (v : vert) (s iK : Z) : fvert :=
  mkF (Mlp_Model.irr _ v s iK (0, 0, 0)%Q) (fun k f => class_of (channel_of v Ca) k s iK f) (fun k f => class_of (channel_of v Cp) k s iK f)
    (fun k f => class_of (channel_of v Ct) k s iK f).
(** integrandSE.hpp:413-446: value_symmetry_expanded at w = 0 *)
Definition loop_vertex (st : symmtype) (v : vert) : vertexfn := fun ch s iK x y =>
  or0 (g_value_expanded false false 3 st ch (expanded v s iK) (0, x, y)%Q).
(** loop<all_spins, version>; [vectorised]: VECTORIZED_INTEGRATION *)
Definition loop_of (Jl : (Q -> cplx) -> cplx) (vectorised version all_spins : bool) (st : symmtype) (v : vert) (g : prop) : selfen :=
  let at_ x := if vectorised then compute_Keldysh_vector Jl false version all_spins (loop_vertex st v) g x (fun _ => C0)
               else compute_Keldysh_scalar Jl false version all_spins (loop_vertex st v) g x (fun _ => C0) in
  let sgn := if version then (-1)%Q else 1%Q in
  mkS (fun x => Cscale sgn (at_ x 0)) (fun x => Cscale sgn (at_ x 1)).

Section Flow.
  Variables (J Jl : (Q -> cplx) -> cplx) (pi : Q) (vectorised : bool) (p : params).
  (** a state *)
  Variables (Psi : vert) (S : selfen).
  (** right_hand_sides.hpp:588-592 *)
  Definition selfEnergyOneLoopFlow : selfen := loop_of Jl vectorised false true symmetric_full Psi (prop_s p S).
  (** 839-856 *)
  Definition selfEnergyFlowCorrections (dGammaC_tbar : vert) : selfen :=
    let dSigma_tbar := loop_of Jl vectorised false true symmetric_r_irred dGammaC_tbar (prop_g p S) in
    let dSigma_t := loop_of Jl vectorised false true symmetric_full Psi (prop_e p S dSigma_tbar) in
    sadd dSigma_tbar dSigma_t.
  (** anderson_acceleration.hpp:57-125 with zeta = 1: coefficients alpha(i) as a function of the history; the history is never empty *)
  Fixpoint mixed (l : list ((vert * selfen) * (vert * selfen))) (alpha : list Q) : selfen :=
    match l, alpha with
    | ((_, new), (_, old)) :: l, a :: alpha => sadd (sscale a (sadd (sscale 1 new) (sscale (1 - 1) old))) (mixed l alpha)
    | _, _ => mkS (fun _ => C0) (fun _ => C0)
    end.
  Variable alpha : list ((vert * selfen) * (vert * selfen)) -> list Q.
  (** 173-560 with the propagators of 197-236; Pi(G, dG, false) does not use its second propagator, so the pair (G, G) stands for it *)
  Definition flow_rhs vnorm bnorm brel reorder tol_abs tol_rel se_abs se_rel nmax nloops : option (Mlp_Model.answer data selfen) :=
    multiloop_rhs J pi selfen sadd ssub Psi (mkP false (prop_g p S) (prop_g p S)) (fun dS => mkP true (prop_g p S) (prop_k p S dS))
      selfEnergyOneLoopFlow
      (fun o => match o with Mlp_Model.Irreducible _ v _ => selfEnergyFlowCorrections v | Mlp_Model.Full _ v => selfEnergyFlowCorrections v
                | Mlp_Model.DiffLeft _ v _ _ | Mlp_Model.DiffRight _ v _ _ => selfEnergyFlowCorrections v end)
      (fun l => mixed l (alpha l)) vnorm bnorm brel reorder tol_abs tol_rel se_abs se_rel nmax nloops.
End Flow.
