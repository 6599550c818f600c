(** Model of the Runge-Kutta-4 step of ODE_solvers/old_solvers.hpp:14-31 (the fixed-step solver); states and numbers as in [Rk_Model].
    Simplified: the output of 33-51 (log, checks, file) is not modelled. *)
From Coq Require Import QArith.
From Verif Require Import Prelude Rk_Model.
Open Scope Q_scope.

Section Step.
Context {I : Type}.
Variable rhs : (I -> Q) -> Q -> I -> Q.
(** the counters of the right-hand side that are changed (26-27): iteration and step number in the Runge-Kutta scheme *)
Definition RK4_step (y_run : I -> Q) (x_run dx : Q) (iteration rk_step : nat) : (I -> Q) * Q * nat * nat :=
  let y1 := Yscale (rhs y_run x_run) dx in
  let y2 := Yscale (rhs (Yadd y_run (Yscale y1 (1 # 2))) (x_run + dx / 2)) dx in
  let y3 := Yscale (rhs (Yadd y_run (Yscale y2 (1 # 2))) (x_run + dx / 2)) dx in
  let y4 := Yscale (rhs (Yadd y_run y3) (x_run + dx)) dx in
  (Yadd y_run (Yscale (Yadd (Yadd (Yadd y1 (Yscale y2 2)) (Yscale y3 2)) y4) (1 / 6)), x_run + dx, S iteration, 0%nat).
End Step.
(** grids/flow_grid.c++:69-75; [None]: size_t underflow for an empty grid *)
Definition flow_grid_step_sizes (x_vals : list Q) : option (list Q) :=
  match x_vals with
  | [] => None
  | _ => Some (map (fun i => nth i x_vals 0 - nth (i - 1) x_vals 0) (seq 1 (length x_vals - 1)))
  end.
(** ODE_solvers/ODE_solvers.hpp:86-113 ODE_solver_RK4 on the grid [x_vals]; [post i y x]: postRKstep_stuff, which moves the result to a
    new frequency grid (it does nothing for states without frequency grid). [None]: it_start is no position of the grid.
    Line 106 leaves out the argument [rhs] of postRKstep_stuff (line 31), so the template cannot be instantiated as it stands (all calls of it
    in the sources are commented out or in unused tests); modelled is the loop with the missing argument added. *)
Section Solver.
Context {I : Type}.
Variable rhs : (I -> Q) -> Q -> I -> Q.
Variable post : nat -> (I -> Q) -> Q -> I -> Q.
Definition solver_step (x_diffs : list Q) (s : (I -> Q) * Q * nat * nat) (i : nat) : (I -> Q) * Q * nat * nat :=
  let '(y_run, x_run, iteration, rk_step) := s in
  let dx := nth i x_diffs 0 in
  let '(y_run, x_run, iteration, rk_step) := RK4_step rhs y_run x_run dx iteration rk_step in
  (post i y_run x_run, x_run, iteration, rk_step).
Definition ODE_solver_RK4 (x_vals : list Q) (y_ini : I -> Q) (it_start iteration rk_step : nat) : option ((I -> Q) * Q * nat * nat) :=
  x_diffs <- flow_grid_step_sizes x_vals ;;
  x_run <- nth_error x_vals it_start ;;
  Some (fold_left (solver_step x_diffs) (seq it_start (length x_diffs - it_start)) (y_ini, x_run, iteration, rk_step)).
End Solver.
