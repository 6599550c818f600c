(** Parquet iterations of vertex and self-energy: perturbation_theory_and_parquet/parquet_solver.hpp:305-345 (compute_SDE, versions 1 and 2),
    478-492 (parquet_iteration), 561-637 (the loop of parquet_solver without convergence tests and files, C52, C94), with
    utilities/anderson_acceleration.hpp:57-125.
    Simplified: the self-energy is stored value plus asymptotic value (C46); frequencies are not discretised; the solution of the least
    squares problem is given as a function of the history (C95); the mixing parameter is given for each iteration. *)
From Coq Require Import QArith.
From Verif Require Import Prelude Cplx Keld_Model Sym_Model Bub_Model Sf_Model Sf_Spec Fl_Model Sde_Model.
From Verif Require Mlp_Model.
Open Scope Z_scope.

Definition state := (vert * selfen)%type.
(** SelfEnergy::initialize *)
Definition initialized (h : Q) (s : selfen) : selfen := mkS (fun x => seR s x + Cofq h)%C (seK s).
Definition dscale (q : Q) (x : data) : data := fun s iK f => Cscale q (x s iK f).
Definition vscale (q : Q) (v : vert) : vert :=
  let r x := {| Mlp_Model.K1 := dscale q (Mlp_Model.K1 _ x); Mlp_Model.K2 := dscale q (Mlp_Model.K2 _ x);
                Mlp_Model.K2b := dscale q (Mlp_Model.K2b _ x); Mlp_Model.K3 := dscale q (Mlp_Model.K3 _ x) |} in
  {| Mlp_Model.irr := dscale q (Mlp_Model.irr _ v); Mlp_Model.va := r (Mlp_Model.va _ v); Mlp_Model.vp := r (Mlp_Model.vp _ v); Mlp_Model.vt := r (Mlp_Model.vt _ v) |}.
Definition st_add (x y : state) : state := (vadd (fst x) (fst y), sadd (snd x) (snd y)).
Definition st_scale (q : Q) (x : state) : state := (vscale q (fst x), sscale q (snd x)).

(** anderson_acceleration.hpp:99-106: the coefficients alpha; gamma has one entry less than the history *)
Fixpoint alphas (prev : Q) (gamma : list Q) : list Q :=
  match gamma with [] => [prev] | g :: gamma => (prev - g)%Q :: alphas g gamma end.
Definition damped (zeta : Q) (p : state * state) : state := st_add (st_scale zeta (fst p)) (st_scale (1 - zeta) (snd p)).
(** 116-124: history of (rhs_evals, iteration_steps) *)
Fixpoint accumulate (zeta : Q) (result : state) (alpha : list Q) (l : list (state * state)) : state :=
  match alpha, l with a :: alpha, p :: l => accumulate zeta (st_add result (st_scale a (damped zeta p))) alpha l | _, _ => result end.
Definition anderson_update (zeta : Q) (gamma : list Q) (l : list (state * state)) : option state :=
  match alphas 1 gamma, l with a :: alpha, p :: l => Some (accumulate zeta (st_scale a (damped zeta p)) alpha l) | _, _ => None end.

Section Iteration.
  Variables (c : cfg) (J Jl : (Q -> cplx) -> cplx) (pi : Q) (vectorised : bool) (U : Q) (p : params) (hartree : selfen -> Q).
  (** parquet_solver.hpp:325-350; versions 1 and 2 only (version 3: Sde3_Model) *)
  Definition compute_SDE (version : Z) (Gamma : vert) (S : selfen) : selfen :=
    let G := prop_g p S in
    let sigma := if version =? 1 then compute_SDE_v1 c J Jl pi vectorised U Gamma G else fst (compute_SDE_v2 c J Jl pi vectorised U Gamma G) in
    initialized (if phs c then U / 2 else hartree S)%Q sigma.
  (** 478-492 *)
  Definition parquet_iteration (version : Z) (x : state) : state :=
    let G := prop_g p (snd x) in
    (parquet_vertex c J pi U (fst x) (mkP false G G), compute_SDE version (fst x) (snd x)).
  (** 561-637: state and history (oldest first) after one more iteration with mixing parameter zeta; at most four states are kept *)
  Variable gamma : list (state * state) -> list Q.
  Definition solver_step (version : Z) (zeta : Q) (x : state * list (state * state)) : option (state * list (state * state)) :=
    let '(state_in, history) := x in
    let history := history ++ [(parquet_iteration version state_in, state_in)] in
    let history := if (4 <? length history)%nat then tl history else history in
    match anderson_update zeta (gamma history) history with Some out => Some (out, history) | None => None end.
  (** USE_ANDERSON_ACCELERATION 0, 604-605 *)
  Definition plain_step (version : Z) (mixing : Q) (x : state) : state :=
    st_add (st_scale mixing (parquet_iteration version x)) (st_scale (1 - mixing) x).
  Fixpoint solver (version : Z) (zetas : list Q) (x : state * list (state * state)) : option (state * list (state * state)) :=
    match zetas with [] => Some x | z :: zetas => match solver_step version z x with Some y => solver version zetas y | None => None end end.
  Definition plain_solver (version : Z) (mixings : list Q) (x : state) : state := fold_left (fun x m => plain_step version m x) mixings x.
End Iteration.
