(** The loop of parquet_solver with Anderson acceleration in the Matsubara formalism: as in Pit_Model (parquet_solver.hpp:561-637,
    anderson_acceleration.hpp:57-125), with the iteration of Mpq_Model. Simplified: as there. *)
From Coq Require Import QArith.
From Verif Require Import Prelude Cplx Sym_Model Bub_Model Sf_Model Sf_Spec Msf_Model Mfl_Model Mpq_Model.
From Verif Require Mlp_Model Pit_Model.
Open Scope Z_scope.

Definition mstate := (vert * mself)%type.
Definition mst_add (x y : mstate) : mstate := (Mlp_Model.vadd data dadd (fst x) (fst y), madd_ (snd x) (snd y)).
Definition mst_scale (q : Q) (x : mstate) : mstate := (Pit_Model.vscale q (fst x), mscale_ q (snd x)).
Definition mdamped (zeta : Q) (p : mstate * mstate) : mstate := mst_add (mst_scale zeta (fst p)) (mst_scale (1 - zeta) (snd p)).
(** anderson_acceleration.hpp:116-124: history of (rhs_evals, iteration_steps) *)
Fixpoint maccumulate (zeta : Q) (result : mstate) (alpha : list Q) (l : list (mstate * mstate)) : mstate :=
  match alpha, l with a :: alpha, p :: l => maccumulate zeta (mst_add result (mst_scale a (mdamped zeta p))) alpha l | _, _ => result end.
(** 99-124 *)
Definition manderson_update (zeta : Q) (gamma : list Q) (l : list (mstate * mstate)) : option mstate :=
  match Pit_Model.alphas 1 gamma, l with a :: alpha, p :: l => Some (maccumulate zeta (mst_scale a (mdamped zeta p)) alpha l) | _, _ => None end.

Section Solver.
  Variables (c : cfg) (J : (Q -> cplx) -> cplx) (Jl : Q -> (Q -> cplx) -> cplx) (pi U : Q) (p : mparams) (hartree : mself -> Q).
  Variable gamma : list (mstate * mstate) -> list Q.
  (** parquet_solver.hpp:561-637: at most four states are kept *)
  Definition msolver_step (version : Z) (zeta : Q) (x : mstate * list (mstate * mstate)) : option (mstate * list (mstate * mstate)) :=
    let '(state_in, history) := x in
    let history := history ++ [(mparquet_iteration c J Jl pi U p hartree version state_in, state_in)] in
    let history := if (4 <? length history)%nat then tl history else history in
    match manderson_update zeta (gamma history) history with Some out => Some (out, history) | None => None end.
  Fixpoint msolver (version : Z) (zetas : list Q) (x : mstate * list (mstate * mstate)) : option (mstate * list (mstate * mstate)) :=
    match zetas with [] => Some x | z :: zetas => match msolver_step version z x with Some y => msolver version zetas y | None => None end end.
End Solver.
