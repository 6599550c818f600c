(** Grids and parametrisations for the flow parameter.
    Model of grids/flow_grid.{hpp,c++} over the reals (no rounding). *)
From Coq Require Import Reals.
From Verif Require Import Prelude Grid_Model.
Open Scope R_scope.

(** flow_grid.c++:3-12 add_points_to_Lambda_grid. [insert_point]: std::find_if for the first x<y and insert before it *)
Fixpoint insert_point (y : R) (grid : list R) : list R :=
  match grid with
  | [] => [y]
  | x :: r => if Rlt_dec x y then y :: x :: r else x :: insert_point y r
  end.
(** [None]: grid[0] of an empty grid *)
Fixpoint add_points_to_Lambda_grid (grid cps : list R) : option (list R) :=
  match cps with
  | [] => Some grid
  | y :: r =>
      if Rlt_dec y 0 then Some grid (* break *)
      else match grid with
           | [] => None
           | g0 :: _ => add_points_to_Lambda_grid (if Rle_dec y g0 then insert_point y grid else grid) r
           end
  end.

(** 14-30 get_Lambda_checkpoints, REG == 2 *)
Fixpoint get_Lambda_checkpoints (Us : list R) (U Gamma Lambda_ini : R) : list R :=
  match Us with
  | [] => []
  | u :: r =>
      let y := 2 * U / u - Gamma in
      if Rlt_dec y 0 then [] (* break *)
      else if Rle_dec y Lambda_ini then y :: get_Lambda_checkpoints r U Gamma Lambda_ini
      else get_Lambda_checkpoints r U Gamma Lambda_ini
  end.

(** parameters/master_parameters.hpp:112 *)
Definition Lambda_scale : R := 1 / 200.
Definition log10 (x : R) : R := ln x / ln 10.
Definition pow10 (x : R) : R := exp (x * ln 10).
(** 32-39 *)
Definition log_substitution (x : R) : R := log10 (1 + x / Lambda_scale).
Definition log_resubstitution (x : R) : R := Lambda_scale * (pow10 x - 1).
(** 41-49 *)
Definition sq_substitution (x : R) : R :=
  let a := 5 in sqrt ((sqrt (x ^ 4 + 4 * (a * x) ^ 2) - x ^ 2) / 2) / a.
Definition sq_resubstitution (x : R) : R := let a := 5 in a * x ^ 2 / sqrt (1 - x ^ 2).

(** 52-66 construct_flow_grid, before the checkpoints are added, and with them *)
Definition flow_points (x_fin x_ini : R) (subst resubst : R -> R) (N : nat) : list R :=
  let X_ini := subst x_ini in let X_fin := subst x_fin in
  let dX := (X_fin - X_ini) / INR N in
  x_ini :: map (fun i => resubst (X_ini + INR i * dX)) (seq 1 N).
Definition construct_flow_grid (x_fin x_ini : R) (subst resubst : R -> R) (N : nat) (cps : list R) : option (list R) :=
  add_points_to_Lambda_grid (flow_points x_fin x_ini subst resubst N) cps.
(** 69-75 flow_grid_step_sizes; [None]: size_t underflow for an empty grid *)
Fixpoint diffs (x : R) (r : list R) : list R := match r with [] => [] | y :: r => (y - x) :: diffs y r end.
Definition flow_grid_step_sizes (x_vals : list R) : option (list R) :=
  match x_vals with [] => None | x :: r => Some (diffs x r) end.

(** flow_grid.hpp:32-54 exp_parametrization; [None]: assertion isfinite *)
Definition exp_lambda_from_t (t : R) : R := exp (t * ln 10).
Definition exp_t_from_lambda (L : R) : option R := if Rlt_dec 0 L then Some (ln L / ln 10) else None.
Definition exp_dlambda_dt (t : R) : R := exp (t * ln 10) * ln 10.
(** 56-80 log_parametrization *)
Definition log_lambda_from_t (t : R) : R := Lambda_scale * (pow10 (- t) - 1).
Definition log_t_from_lambda (L : R) : option R := if Rlt_dec 0 (1 + L / Lambda_scale) then Some (- log10 (1 + L / Lambda_scale)) else None.
Definition log_dlambda_dt (t : R) : R := - Lambda_scale * pow10 (- t) * ln 10.
(** 83-104 sqrt_parametrization; sign is sgn of utilities/math_utils *)
Definition sqrt_lambda_from_t (t : R) : R := let a := 5 in a * t * t / sqrt (1 - t * t) * sgn t.
Definition sqrt_t_from_lambda (L : R) : R :=
  let a := 5 in sqrt ((sqrt (L ^ 4 + 4 * (a * L) ^ 2) - L ^ 2) / 2) / a * sgn L.
Definition sqrt_dlambda_dt (t : R) : R := let temp := sqrt (1 - t * t) in 5 * Rabs t * (2 - t * t) / (temp * temp * temp).
(** 107-125 linear_parametrization *)
Definition lin_lambda_from_t (t : R) : R := t.
Definition lin_t_from_lambda (L : R) : R := L.
Definition lin_dlambda_dt (t : R) : R := 1.
