(** The multiloop right-hand side with numbers for vertex and self-energy in the Matsubara formalism, as [Fl_Model]: the loop (Lop_Model)
    closes the vertices of Msf_Model (zero temperature) or Mtf_Model (finite temperature), its result enters the propagators.
    DEBUG_SYMMETRIES 1, REG 2, 3 or 4, Katanin substitution, MAX_DIAG_CLASS 3, no SBE decomposition. With particle-hole symmetry the
    imaginary parts of self-energy and propagator are stored as real numbers.
    Simplified: self-energies are known at all frequencies (no interpolation) and include the asymptotic value; division by zero gives zero
    instead of an infinite value, the assertion v != 0 of the single-scale propagators is left out. *)
From Coq Require Import QArith.
From Verif Require Import Prelude Cplx Keld_Model Sym_Model Tab_Model Rd_Model Dec_Model Bub_Model Sf_Model Sf_Spec Msf_Model Lop_Model.
From Verif Require Mlp_Model Bse_Model Mbt_Model Mtf_Model Fl_Model.
Open Scope Z_scope.

Definition mself := Q -> cplx.
(** selfenergy.hpp operators *)
Definition madd_ (x y : mself) : mself := fun v => (x v + y v)%C.
Definition mscale_ (q : Q) (x : mself) : mself := fun v => Cscale q (x v).
Definition msub_ (x y : mself) : mself := madd_ x (mscale_ (-1) y).

(** ** propagator.hpp (Gf_Model) with rational numbers; [unit]: pi T at finite temperature, otherwise 1 *)
Record mparams := mkMP { ph : bool; reg : Z; lam : Q; eps : Q; gam : Q; unit : Q }.
(** math_utils.hpp:24 *)
Definition sign (v : Q) : Q := (if Qlt_le_dec 0 v then 1 else 0) - (if Qlt_le_dec v 0 then 1 else 0).
Section Propagators.
  Variable p : mparams.
  (** 648-662 *)
  Definition G0M_inv (v : Q) : cplx :=
    if ph p then Cofq (v * unit p + gam p * (1 # 2) * sign v) else (Cofq (v * unit p + gam p * (1 # 2) * sign v) * Ci - Cofq (eps p))%C.
  (** 693-708, 744-750, 777-783; 338-345 *)
  Definition GM (S : mself) (v : Q) : cplx :=
    if reg p =? 2 then
      if ph p then (C1 / (G0M_inv v + Cofq (lam p * (1 # 2) * sign v) - S v))%C
      else (C1 / (G0M_inv v + Ci * Cofq (lam p * (1 # 2) * sign v) - S v))%C
    else if reg p =? 3 then (C1 / (G0M_inv v / Cofq (v * v / (v * v + lam p * lam p)) - S v))%C
    else if reg p =? 4 then (Cofq (lam p) / (G0M_inv v - Cofq (lam p) * S v))%C
    else C0.
  (** 710-722, 751-758, 784-795; 347-354 *)
  Definition SM (S : mself) (v : Q) : cplx :=
    if reg p =? 2 then
      if ph p then (Cofq (- (1 # 2)) * GM S v * GM S v * Cofq (sign v))%C
      else (Cofq (- (1 # 2)) * Ci * GM S v * GM S v * Cofq (sign v))%C
    else if reg p =? 3 then (Cofq (- (2) * lam p / (v * v)) * GM S v * G0M_inv v * GM S v)%C
    else if reg p =? 4 then let G := (C1 / (G0M_inv v - Cofq (lam p) * S v))%C in (G0M_inv v * G * G)%C
    else C0.
  (** 455-465, 490-495: types 'e' and 'k' *)
  Definition prop_e (S dS : mself) (v : Q) : cplx := (GM S v * dS v * GM S v)%C.
  Definition prop_k (S dS : mself) (v : Q) : cplx := (SM S v + GM S v * dS v * GM S v)%C.
End Propagators.

(** ** loop() on a vertex of numbers *)
(** value_symmetry_expanded at w = 0; [finite]: frequency conversions of the finite-temperature case *)
Definition loop_vertex (finite : bool) (st : symmtype) (v : vert) : vertexfn := fun ch s iK x y =>
  or0 (g_value_expanded finite false 3 st ch (Fl_Model.expanded v s iK) (0, x, y)%Q).
(** loop<all_spins, version>, loop.hpp:444-472, 485-530; [Jl v]: prefactor times integral or sum for the external frequency v *)
Definition loop_of (Jl : Q -> (Q -> cplx) -> cplx) (finite phs version all_spins : bool) (st : symmtype) (v : vert) (g : Q -> cplx) : mself :=
  fun x => Cscale (if version then (-1)%Q else 1%Q)
    (compute_Matsubara (Jl x) phs version all_spins (loop_vertex finite st v) g x (fun _ => C0) 0).
(** loop.hpp:88-93, 466: the sum over the frequencies of -POSINTRANGE ... POSINTRANGE - 1 does not depend on v *)
Definition loop_sum (pos : Z) (T : Q) : Q -> (Q -> cplx) -> cplx := fun _ f =>
  (- (Cofq T * Mbt_Model.matsubarasum f (- pos) (- - pos - 1)))%C.

Section Flow.
  Variables (Jl : Q -> (Q -> cplx) -> cplx) (finite : bool) (p : mparams).
  (** a state *)
  Variables (Psi : vert) (S : mself).
  (** right_hand_sides.hpp:588-592 *)
  Definition selfEnergyOneLoopFlow : mself := loop_of Jl finite (ph p) false true symmetric_full Psi (SM p S).
  (** 839-856 *)
  Definition selfEnergyFlowCorrections (dGammaC_tbar : vert) : mself :=
    let dSigma_tbar := loop_of Jl finite (ph p) false true symmetric_r_irred dGammaC_tbar (GM p S) in
    let dSigma_t := loop_of Jl finite (ph p) false true symmetric_full Psi (prop_e p S dSigma_tbar) in
    madd_ dSigma_tbar dSigma_t.
  (** anderson_acceleration.hpp:57-125, see [Fl_Model.mixed] *)
  Fixpoint mixed (l : list ((vert * mself) * (vert * mself))) (alpha : list Q) : mself :=
    match l, alpha with
    | ((_, new), (_, old)) :: l, a :: alpha => madd_ (mscale_ a (madd_ (mscale_ 1 new) (mscale_ (1 - 1) old))) (mixed l alpha)
    | _, _ => fun _ => C0
    end.
  Definition corrections (o : Mlp_Model.operand data) : mself :=
    match o with Mlp_Model.Irreducible _ v _ => selfEnergyFlowCorrections v | Mlp_Model.Full _ v => selfEnergyFlowCorrections v
    | Mlp_Model.DiffLeft _ v _ _ | Mlp_Model.DiffRight _ v _ _ => selfEnergyFlowCorrections v end.
  Variable alpha : list ((vert * mself) * (vert * mself)) -> list Q.
  (** right_hand_sides.hpp:173-560 with the propagators of 197-236, zero temperature *)
  Definition mflow_rhs c J pi vnorm bnorm brel reorder tol_abs tol_rel se_abs se_rel nmax nloops : option (Mlp_Model.answer data mself) :=
    matsubara_rhs c J pi mself madd_ msub_ Psi (mkM false (GM p S) (GM p S)) (fun dS => mkM true (GM p S) (prop_k p S dS))
      selfEnergyOneLoopFlow corrections (fun l => mixed l (alpha l)) vnorm bnorm brel reorder tol_abs tol_rel se_abs se_rel nmax nloops.
  (** the same at finite temperature *)
  Definition tflow_rhs c pos tails pi T vnorm bnorm brel reorder tol_abs tol_rel se_abs se_rel nmax nloops : option (Mlp_Model.answer data mself) :=
    Mtf_Model.finite_T_rhs c pos tails pi T mself madd_ msub_ Psi (mkM false (GM p S) (GM p S)) (fun dS => mkM true (GM p S) (prop_k p S dS))
      selfEnergyOneLoopFlow corrections (fun l => mixed l (alpha l)) vnorm bnorm brel reorder tol_abs tol_rel se_abs se_rel nmax nloops.
End Flow.
