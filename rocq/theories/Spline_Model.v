(** Cubic splines on one grid cell.
    Model of interpolations/InterpolatorSpline1D.hpp, InterpolatorSpline2D.hpp, InterpolatorSpline3D.hpp over the real
    numbers. Only the arithmetic of one cell is modelled: the values and derivatives at the corners are given, the
    flat indices of the cell ([rotateFlatIndex], see Idx_Model.v) and the initialisation of the derivative arrays
    (which calls get_deriv_x() without its argument and does not compile) are left out. *)
From Coq Require Import Reals List ZArith Bool.
Import ListNotations.
Open Scope R_scope.

Fixpoint dotR (x y : list R) : R := match x, y with a :: x', b :: y' => a * b + dotR x' y' | _, _ => 0 end.
(** matrix (integers) times vector *)
Definition matvec (A : list (list Z)) (fs : list R) : list R := map (fun row => dotR (map IZR row) fs) A.
Fixpoint vdiv (x s : list R) : list R := match x, s with a :: x', b :: s' => a / b :: vdiv x' s' | _, _ => [] end.
(** powers up to the third; products, the last factor running fastest *)
Definition powers (h : R) : list R := [1; h; h * h; h * h * h].
Definition pow4 (h : R) : list R := map (fun i => h ^ i) (seq 0 4).
Definition outer (x y : list R) : list R := flat_map (fun a => map (fun b => a * b) y) x.

(** ** 1D: 108-112 matrix, 114-130 coefficients, 160-170 weights, 174-205 value at distance [x] from the lower point;
    [f], [b]: value and derivative at the lower (false) and upper (true) point *)
Definition A1 : list (list Z) := [
  [1; 0; 0; 0];
  [0; 0; 1; 0];
  [-3; 3; -2; -1];
  [2; -2; 1; 1]]%Z.
Definition coeffs1 (h : R) (f b : bool -> R) : list R :=
  vdiv (matvec A1 [f false; f true; b false * h; b true * h]) [1; h; h * h; h * h * h].
Definition spline1 (h : R) (f b : bool -> R) (x : R) : R := dotR (coeffs1 h f b) (powers x).

(** ** 2D: 80-96 matrix, 98-130 coefficients, 150-168 weights; [F dx dy cx cy]: the derivative with respect to x and/or y
    at the corner (cx, cy) *)
Definition A2 : list (list Z) := [
  [1; 0; 0; 0; 0; 0; 0; 0; 0; 0; 0; 0; 0; 0; 0; 0];
  [0; 0; 0; 0; 1; 0; 0; 0; 0; 0; 0; 0; 0; 0; 0; 0];
  [-3; 3; 0; 0; -2; -1; 0; 0; 0; 0; 0; 0; 0; 0; 0; 0];
  [2; -2; 0; 0; 1; 1; 0; 0; 0; 0; 0; 0; 0; 0; 0; 0];
  [0; 0; 0; 0; 0; 0; 0; 0; 1; 0; 0; 0; 0; 0; 0; 0];
  [0; 0; 0; 0; 0; 0; 0; 0; 0; 0; 0; 0; 1; 0; 0; 0];
  [0; 0; 0; 0; 0; 0; 0; 0; -3; 3; 0; 0; -2; -1; 0; 0];
  [0; 0; 0; 0; 0; 0; 0; 0; 2; -2; 0; 0; 1; 1; 0; 0];
  [-3; 0; 3; 0; 0; 0; 0; 0; -2; 0; -1; 0; 0; 0; 0; 0];
  [0; 0; 0; 0; -3; 0; 3; 0; 0; 0; 0; 0; -2; 0; -1; 0];
  [9; -9; -9; 9; 6; 3; -6; -3; 6; -6; 3; -3; 4; 2; 2; 1];
  [-6; 6; 6; -6; -3; -3; 3; 3; -4; 4; -2; 2; -2; -2; -1; -1];
  [2; 0; -2; 0; 0; 0; 0; 0; 1; 0; 1; 0; 0; 0; 0; 0];
  [0; 0; 0; 0; 2; 0; -2; 0; 0; 0; 0; 0; 1; 0; 1; 0];
  [-6; 6; 6; -6; -4; -2; 4; 2; -3; 3; -3; 3; -2; -1; -2; -1];
  [4; -4; -4; 4; 2; 2; -2; -2; 2; -2; 2; -2; 1; 1; 1; 1]]%Z.
Definition corners2 (f : bool -> bool -> R) : list R := [f false false; f true false; f false true; f true true].
Definition fs2 (dw dv : R) (F : bool -> bool -> bool -> bool -> R) : list R :=
  corners2 (F false false) ++ map (fun y => dw * y) (corners2 (F true false)) ++ map (fun y => dv * y) (corners2 (F false true))
  ++ map (fun y => dw * dv * y) (corners2 (F true true)).
Definition coeffs2 (dw dv : R) (F : bool -> bool -> bool -> bool -> R) : list R :=
  vdiv (matvec A2 (fs2 dw dv F)) (outer (pow4 dv) (pow4 dw)).
Definition spline2 (dw dv : R) (F : bool -> bool -> bool -> bool -> R) (hw hv : R) : R :=
  dotR (coeffs2 dw dv F) (outer (powers hv) (powers hw)).

(** ** 3D: 63-127 matrix, 172-189 coefficients, 222-241 weights; [F dx dy dz cx cy cz] *)
Definition A3 : list (list Z) := [
  [1; 0; 0; 0; 0; 0; 0; 0; 0; 0; 0; 0; 0; 0; 0; 0; 0; 0; 0; 0; 0; 0; 0; 0; 0; 0; 0; 0; 0; 0; 0; 0; 0; 0; 0; 0; 0; 0; 0; 0; 0; 0; 0; 0; 0; 0; 0; 0; 0; 0; 0; 0; 0; 0; 0; 0; 0; 0; 0; 0; 0; 0; 0; 0];
  [0; 0; 0; 0; 0; 0; 0; 0; 1; 0; 0; 0; 0; 0; 0; 0; 0; 0; 0; 0; 0; 0; 0; 0; 0; 0; 0; 0; 0; 0; 0; 0; 0; 0; 0; 0; 0; 0; 0; 0; 0; 0; 0; 0; 0; 0; 0; 0; 0; 0; 0; 0; 0; 0; 0; 0; 0; 0; 0; 0; 0; 0; 0; 0];
  [-3; 3; 0; 0; 0; 0; 0; 0; -2; -1; 0; 0; 0; 0; 0; 0; 0; 0; 0; 0; 0; 0; 0; 0; 0; 0; 0; 0; 0; 0; 0; 0; 0; 0; 0; 0; 0; 0; 0; 0; 0; 0; 0; 0; 0; 0; 0; 0; 0; 0; 0; 0; 0; 0; 0; 0; 0; 0; 0; 0; 0; 0; 0; 0];
  [2; -2; 0; 0; 0; 0; 0; 0; 1; 1; 0; 0; 0; 0; 0; 0; 0; 0; 0; 0; 0; 0; 0; 0; 0; 0; 0; 0; 0; 0; 0; 0; 0; 0; 0; 0; 0; 0; 0; 0; 0; 0; 0; 0; 0; 0; 0; 0; 0; 0; 0; 0; 0; 0; 0; 0; 0; 0; 0; 0; 0; 0; 0; 0];
  [0; 0; 0; 0; 0; 0; 0; 0; 0; 0; 0; 0; 0; 0; 0; 0; 1; 0; 0; 0; 0; 0; 0; 0; 0; 0; 0; 0; 0; 0; 0; 0; 0; 0; 0; 0; 0; 0; 0; 0; 0; 0; 0; 0; 0; 0; 0; 0; 0; 0; 0; 0; 0; 0; 0; 0; 0; 0; 0; 0; 0; 0; 0; 0];
  [0; 0; 0; 0; 0; 0; 0; 0; 0; 0; 0; 0; 0; 0; 0; 0; 0; 0; 0; 0; 0; 0; 0; 0; 0; 0; 0; 0; 0; 0; 0; 0; 1; 0; 0; 0; 0; 0; 0; 0; 0; 0; 0; 0; 0; 0; 0; 0; 0; 0; 0; 0; 0; 0; 0; 0; 0; 0; 0; 0; 0; 0; 0; 0];
  [0; 0; 0; 0; 0; 0; 0; 0; 0; 0; 0; 0; 0; 0; 0; 0; -3; 3; 0; 0; 0; 0; 0; 0; 0; 0; 0; 0; 0; 0; 0; 0; -2; -1; 0; 0; 0; 0; 0; 0; 0; 0; 0; 0; 0; 0; 0; 0; 0; 0; 0; 0; 0; 0; 0; 0; 0; 0; 0; 0; 0; 0; 0; 0];
  [0; 0; 0; 0; 0; 0; 0; 0; 0; 0; 0; 0; 0; 0; 0; 0; 2; -2; 0; 0; 0; 0; 0; 0; 0; 0; 0; 0; 0; 0; 0; 0; 1; 1; 0; 0; 0; 0; 0; 0; 0; 0; 0; 0; 0; 0; 0; 0; 0; 0; 0; 0; 0; 0; 0; 0; 0; 0; 0; 0; 0; 0; 0; 0];
  [-3; 0; 3; 0; 0; 0; 0; 0; 0; 0; 0; 0; 0; 0; 0; 0; -2; 0; -1; 0; 0; 0; 0; 0; 0; 0; 0; 0; 0; 0; 0; 0; 0; 0; 0; 0; 0; 0; 0; 0; 0; 0; 0; 0; 0; 0; 0; 0; 0; 0; 0; 0; 0; 0; 0; 0; 0; 0; 0; 0; 0; 0; 0; 0];
  [0; 0; 0; 0; 0; 0; 0; 0; -3; 0; 3; 0; 0; 0; 0; 0; 0; 0; 0; 0; 0; 0; 0; 0; 0; 0; 0; 0; 0; 0; 0; 0; -2; 0; -1; 0; 0; 0; 0; 0; 0; 0; 0; 0; 0; 0; 0; 0; 0; 0; 0; 0; 0; 0; 0; 0; 0; 0; 0; 0; 0; 0; 0; 0];
  [9; -9; -9; 9; 0; 0; 0; 0; 6; 3; -6; -3; 0; 0; 0; 0; 6; -6; 3; -3; 0; 0; 0; 0; 0; 0; 0; 0; 0; 0; 0; 0; 4; 2; 2; 1; 0; 0; 0; 0; 0; 0; 0; 0; 0; 0; 0; 0; 0; 0; 0; 0; 0; 0; 0; 0; 0; 0; 0; 0; 0; 0; 0; 0];
  [-6; 6; 6; -6; 0; 0; 0; 0; -3; -3; 3; 3; 0; 0; 0; 0; -4; 4; -2; 2; 0; 0; 0; 0; 0; 0; 0; 0; 0; 0; 0; 0; -2; -2; -1; -1; 0; 0; 0; 0; 0; 0; 0; 0; 0; 0; 0; 0; 0; 0; 0; 0; 0; 0; 0; 0; 0; 0; 0; 0; 0; 0; 0; 0];
  [2; 0; -2; 0; 0; 0; 0; 0; 0; 0; 0; 0; 0; 0; 0; 0; 1; 0; 1; 0; 0; 0; 0; 0; 0; 0; 0; 0; 0; 0; 0; 0; 0; 0; 0; 0; 0; 0; 0; 0; 0; 0; 0; 0; 0; 0; 0; 0; 0; 0; 0; 0; 0; 0; 0; 0; 0; 0; 0; 0; 0; 0; 0; 0];
  [0; 0; 0; 0; 0; 0; 0; 0; 2; 0; -2; 0; 0; 0; 0; 0; 0; 0; 0; 0; 0; 0; 0; 0; 0; 0; 0; 0; 0; 0; 0; 0; 1; 0; 1; 0; 0; 0; 0; 0; 0; 0; 0; 0; 0; 0; 0; 0; 0; 0; 0; 0; 0; 0; 0; 0; 0; 0; 0; 0; 0; 0; 0; 0];
  [-6; 6; 6; -6; 0; 0; 0; 0; -4; -2; 4; 2; 0; 0; 0; 0; -3; 3; -3; 3; 0; 0; 0; 0; 0; 0; 0; 0; 0; 0; 0; 0; -2; -1; -2; -1; 0; 0; 0; 0; 0; 0; 0; 0; 0; 0; 0; 0; 0; 0; 0; 0; 0; 0; 0; 0; 0; 0; 0; 0; 0; 0; 0; 0];
  [4; -4; -4; 4; 0; 0; 0; 0; 2; 2; -2; -2; 0; 0; 0; 0; 2; -2; 2; -2; 0; 0; 0; 0; 0; 0; 0; 0; 0; 0; 0; 0; 1; 1; 1; 1; 0; 0; 0; 0; 0; 0; 0; 0; 0; 0; 0; 0; 0; 0; 0; 0; 0; 0; 0; 0; 0; 0; 0; 0; 0; 0; 0; 0];
  [0; 0; 0; 0; 0; 0; 0; 0; 0; 0; 0; 0; 0; 0; 0; 0; 0; 0; 0; 0; 0; 0; 0; 0; 1; 0; 0; 0; 0; 0; 0; 0; 0; 0; 0; 0; 0; 0; 0; 0; 0; 0; 0; 0; 0; 0; 0; 0; 0; 0; 0; 0; 0; 0; 0; 0; 0; 0; 0; 0; 0; 0; 0; 0];
  [0; 0; 0; 0; 0; 0; 0; 0; 0; 0; 0; 0; 0; 0; 0; 0; 0; 0; 0; 0; 0; 0; 0; 0; 0; 0; 0; 0; 0; 0; 0; 0; 0; 0; 0; 0; 0; 0; 0; 0; 1; 0; 0; 0; 0; 0; 0; 0; 0; 0; 0; 0; 0; 0; 0; 0; 0; 0; 0; 0; 0; 0; 0; 0];
  [0; 0; 0; 0; 0; 0; 0; 0; 0; 0; 0; 0; 0; 0; 0; 0; 0; 0; 0; 0; 0; 0; 0; 0; -3; 3; 0; 0; 0; 0; 0; 0; 0; 0; 0; 0; 0; 0; 0; 0; -2; -1; 0; 0; 0; 0; 0; 0; 0; 0; 0; 0; 0; 0; 0; 0; 0; 0; 0; 0; 0; 0; 0; 0];
  [0; 0; 0; 0; 0; 0; 0; 0; 0; 0; 0; 0; 0; 0; 0; 0; 0; 0; 0; 0; 0; 0; 0; 0; 2; -2; 0; 0; 0; 0; 0; 0; 0; 0; 0; 0; 0; 0; 0; 0; 1; 1; 0; 0; 0; 0; 0; 0; 0; 0; 0; 0; 0; 0; 0; 0; 0; 0; 0; 0; 0; 0; 0; 0];
  [0; 0; 0; 0; 0; 0; 0; 0; 0; 0; 0; 0; 0; 0; 0; 0; 0; 0; 0; 0; 0; 0; 0; 0; 0; 0; 0; 0; 0; 0; 0; 0; 0; 0; 0; 0; 0; 0; 0; 0; 0; 0; 0; 0; 0; 0; 0; 0; 1; 0; 0; 0; 0; 0; 0; 0; 0; 0; 0; 0; 0; 0; 0; 0];
  [0; 0; 0; 0; 0; 0; 0; 0; 0; 0; 0; 0; 0; 0; 0; 0; 0; 0; 0; 0; 0; 0; 0; 0; 0; 0; 0; 0; 0; 0; 0; 0; 0; 0; 0; 0; 0; 0; 0; 0; 0; 0; 0; 0; 0; 0; 0; 0; 0; 0; 0; 0; 0; 0; 0; 0; 1; 0; 0; 0; 0; 0; 0; 0];
  [0; 0; 0; 0; 0; 0; 0; 0; 0; 0; 0; 0; 0; 0; 0; 0; 0; 0; 0; 0; 0; 0; 0; 0; 0; 0; 0; 0; 0; 0; 0; 0; 0; 0; 0; 0; 0; 0; 0; 0; 0; 0; 0; 0; 0; 0; 0; 0; -3; 3; 0; 0; 0; 0; 0; 0; -2; -1; 0; 0; 0; 0; 0; 0];
  [0; 0; 0; 0; 0; 0; 0; 0; 0; 0; 0; 0; 0; 0; 0; 0; 0; 0; 0; 0; 0; 0; 0; 0; 0; 0; 0; 0; 0; 0; 0; 0; 0; 0; 0; 0; 0; 0; 0; 0; 0; 0; 0; 0; 0; 0; 0; 0; 2; -2; 0; 0; 0; 0; 0; 0; 1; 1; 0; 0; 0; 0; 0; 0];
  [0; 0; 0; 0; 0; 0; 0; 0; 0; 0; 0; 0; 0; 0; 0; 0; 0; 0; 0; 0; 0; 0; 0; 0; -3; 0; 3; 0; 0; 0; 0; 0; 0; 0; 0; 0; 0; 0; 0; 0; 0; 0; 0; 0; 0; 0; 0; 0; -2; 0; -1; 0; 0; 0; 0; 0; 0; 0; 0; 0; 0; 0; 0; 0];
  [0; 0; 0; 0; 0; 0; 0; 0; 0; 0; 0; 0; 0; 0; 0; 0; 0; 0; 0; 0; 0; 0; 0; 0; 0; 0; 0; 0; 0; 0; 0; 0; 0; 0; 0; 0; 0; 0; 0; 0; -3; 0; 3; 0; 0; 0; 0; 0; 0; 0; 0; 0; 0; 0; 0; 0; -2; 0; -1; 0; 0; 0; 0; 0];
  [0; 0; 0; 0; 0; 0; 0; 0; 0; 0; 0; 0; 0; 0; 0; 0; 0; 0; 0; 0; 0; 0; 0; 0; 9; -9; -9; 9; 0; 0; 0; 0; 0; 0; 0; 0; 0; 0; 0; 0; 6; 3; -6; -3; 0; 0; 0; 0; 6; -6; 3; -3; 0; 0; 0; 0; 4; 2; 2; 1; 0; 0; 0; 0];
  [0; 0; 0; 0; 0; 0; 0; 0; 0; 0; 0; 0; 0; 0; 0; 0; 0; 0; 0; 0; 0; 0; 0; 0; -6; 6; 6; -6; 0; 0; 0; 0; 0; 0; 0; 0; 0; 0; 0; 0; -3; -3; 3; 3; 0; 0; 0; 0; -4; 4; -2; 2; 0; 0; 0; 0; -2; -2; -1; -1; 0; 0; 0; 0];
  [0; 0; 0; 0; 0; 0; 0; 0; 0; 0; 0; 0; 0; 0; 0; 0; 0; 0; 0; 0; 0; 0; 0; 0; 2; 0; -2; 0; 0; 0; 0; 0; 0; 0; 0; 0; 0; 0; 0; 0; 0; 0; 0; 0; 0; 0; 0; 0; 1; 0; 1; 0; 0; 0; 0; 0; 0; 0; 0; 0; 0; 0; 0; 0];
  [0; 0; 0; 0; 0; 0; 0; 0; 0; 0; 0; 0; 0; 0; 0; 0; 0; 0; 0; 0; 0; 0; 0; 0; 0; 0; 0; 0; 0; 0; 0; 0; 0; 0; 0; 0; 0; 0; 0; 0; 2; 0; -2; 0; 0; 0; 0; 0; 0; 0; 0; 0; 0; 0; 0; 0; 1; 0; 1; 0; 0; 0; 0; 0];
  [0; 0; 0; 0; 0; 0; 0; 0; 0; 0; 0; 0; 0; 0; 0; 0; 0; 0; 0; 0; 0; 0; 0; 0; -6; 6; 6; -6; 0; 0; 0; 0; 0; 0; 0; 0; 0; 0; 0; 0; -4; -2; 4; 2; 0; 0; 0; 0; -3; 3; -3; 3; 0; 0; 0; 0; -2; -1; -2; -1; 0; 0; 0; 0];
  [0; 0; 0; 0; 0; 0; 0; 0; 0; 0; 0; 0; 0; 0; 0; 0; 0; 0; 0; 0; 0; 0; 0; 0; 4; -4; -4; 4; 0; 0; 0; 0; 0; 0; 0; 0; 0; 0; 0; 0; 2; 2; -2; -2; 0; 0; 0; 0; 2; -2; 2; -2; 0; 0; 0; 0; 1; 1; 1; 1; 0; 0; 0; 0];
  [-3; 0; 0; 0; 3; 0; 0; 0; 0; 0; 0; 0; 0; 0; 0; 0; 0; 0; 0; 0; 0; 0; 0; 0; -2; 0; 0; 0; -1; 0; 0; 0; 0; 0; 0; 0; 0; 0; 0; 0; 0; 0; 0; 0; 0; 0; 0; 0; 0; 0; 0; 0; 0; 0; 0; 0; 0; 0; 0; 0; 0; 0; 0; 0];
  [0; 0; 0; 0; 0; 0; 0; 0; -3; 0; 0; 0; 3; 0; 0; 0; 0; 0; 0; 0; 0; 0; 0; 0; 0; 0; 0; 0; 0; 0; 0; 0; 0; 0; 0; 0; 0; 0; 0; 0; -2; 0; 0; 0; -1; 0; 0; 0; 0; 0; 0; 0; 0; 0; 0; 0; 0; 0; 0; 0; 0; 0; 0; 0];
  [9; -9; 0; 0; -9; 9; 0; 0; 6; 3; 0; 0; -6; -3; 0; 0; 0; 0; 0; 0; 0; 0; 0; 0; 6; -6; 0; 0; 3; -3; 0; 0; 0; 0; 0; 0; 0; 0; 0; 0; 4; 2; 0; 0; 2; 1; 0; 0; 0; 0; 0; 0; 0; 0; 0; 0; 0; 0; 0; 0; 0; 0; 0; 0];
  [-6; 6; 0; 0; 6; -6; 0; 0; -3; -3; 0; 0; 3; 3; 0; 0; 0; 0; 0; 0; 0; 0; 0; 0; -4; 4; 0; 0; -2; 2; 0; 0; 0; 0; 0; 0; 0; 0; 0; 0; -2; -2; 0; 0; -1; -1; 0; 0; 0; 0; 0; 0; 0; 0; 0; 0; 0; 0; 0; 0; 0; 0; 0; 0];
  [0; 0; 0; 0; 0; 0; 0; 0; 0; 0; 0; 0; 0; 0; 0; 0; -3; 0; 0; 0; 3; 0; 0; 0; 0; 0; 0; 0; 0; 0; 0; 0; 0; 0; 0; 0; 0; 0; 0; 0; 0; 0; 0; 0; 0; 0; 0; 0; -2; 0; 0; 0; -1; 0; 0; 0; 0; 0; 0; 0; 0; 0; 0; 0];
  [0; 0; 0; 0; 0; 0; 0; 0; 0; 0; 0; 0; 0; 0; 0; 0; 0; 0; 0; 0; 0; 0; 0; 0; 0; 0; 0; 0; 0; 0; 0; 0; -3; 0; 0; 0; 3; 0; 0; 0; 0; 0; 0; 0; 0; 0; 0; 0; 0; 0; 0; 0; 0; 0; 0; 0; -2; 0; 0; 0; -1; 0; 0; 0];
  [0; 0; 0; 0; 0; 0; 0; 0; 0; 0; 0; 0; 0; 0; 0; 0; 9; -9; 0; 0; -9; 9; 0; 0; 0; 0; 0; 0; 0; 0; 0; 0; 6; 3; 0; 0; -6; -3; 0; 0; 0; 0; 0; 0; 0; 0; 0; 0; 6; -6; 0; 0; 3; -3; 0; 0; 4; 2; 0; 0; 2; 1; 0; 0];
  [0; 0; 0; 0; 0; 0; 0; 0; 0; 0; 0; 0; 0; 0; 0; 0; -6; 6; 0; 0; 6; -6; 0; 0; 0; 0; 0; 0; 0; 0; 0; 0; -3; -3; 0; 0; 3; 3; 0; 0; 0; 0; 0; 0; 0; 0; 0; 0; -4; 4; 0; 0; -2; 2; 0; 0; -2; -2; 0; 0; -1; -1; 0; 0];
  [9; 0; -9; 0; -9; 0; 9; 0; 0; 0; 0; 0; 0; 0; 0; 0; 6; 0; 3; 0; -6; 0; -3; 0; 6; 0; -6; 0; 3; 0; -3; 0; 0; 0; 0; 0; 0; 0; 0; 0; 0; 0; 0; 0; 0; 0; 0; 0; 4; 0; 2; 0; 2; 0; 1; 0; 0; 0; 0; 0; 0; 0; 0; 0];
  [0; 0; 0; 0; 0; 0; 0; 0; 9; 0; -9; 0; -9; 0; 9; 0; 0; 0; 0; 0; 0; 0; 0; 0; 0; 0; 0; 0; 0; 0; 0; 0; 6; 0; 3; 0; -6; 0; -3; 0; 6; 0; -6; 0; 3; 0; -3; 0; 0; 0; 0; 0; 0; 0; 0; 0; 4; 0; 2; 0; 2; 0; 1; 0];
  [-27; 27; 27; -27; 27; -27; -27; 27; -18; -9; 18; 9; 18; 9; -18; -9; -18; 18; -9; 9; 18; -18; 9; -9; -18; 18; 18; -18; -9; 9; 9; -9; -12; -6; -6; -3; 12; 6; 6; 3; -12; -6; 12; 6; -6; -3; 6; 3; -12; 12; -6; 6; -6; 6; -3; 3; -8; -4; -4; -2; -4; -2; -2; -1];
  [18; -18; -18; 18; -18; 18; 18; -18; 9; 9; -9; -9; -9; -9; 9; 9; 12; -12; 6; -6; -12; 12; -6; 6; 12; -12; -12; 12; 6; -6; -6; 6; 6; 6; 3; 3; -6; -6; -3; -3; 6; 6; -6; -6; 3; 3; -3; -3; 8; -8; 4; -4; 4; -4; 2; -2; 4; 4; 2; 2; 2; 2; 1; 1];
  [-6; 0; 6; 0; 6; 0; -6; 0; 0; 0; 0; 0; 0; 0; 0; 0; -3; 0; -3; 0; 3; 0; 3; 0; -4; 0; 4; 0; -2; 0; 2; 0; 0; 0; 0; 0; 0; 0; 0; 0; 0; 0; 0; 0; 0; 0; 0; 0; -2; 0; -2; 0; -1; 0; -1; 0; 0; 0; 0; 0; 0; 0; 0; 0];
  [0; 0; 0; 0; 0; 0; 0; 0; -6; 0; 6; 0; 6; 0; -6; 0; 0; 0; 0; 0; 0; 0; 0; 0; 0; 0; 0; 0; 0; 0; 0; 0; -3; 0; -3; 0; 3; 0; 3; 0; -4; 0; 4; 0; -2; 0; 2; 0; 0; 0; 0; 0; 0; 0; 0; 0; -2; 0; -2; 0; -1; 0; -1; 0];
  [18; -18; -18; 18; -18; 18; 18; -18; 12; 6; -12; -6; -12; -6; 12; 6; 9; -9; 9; -9; -9; 9; -9; 9; 12; -12; -12; 12; 6; -6; -6; 6; 6; 3; 6; 3; -6; -3; -6; -3; 8; 4; -8; -4; 4; 2; -4; -2; 6; -6; 6; -6; 3; -3; 3; -3; 4; 2; 4; 2; 2; 1; 2; 1];
  [-12; 12; 12; -12; 12; -12; -12; 12; -6; -6; 6; 6; 6; 6; -6; -6; -6; 6; -6; 6; 6; -6; 6; -6; -8; 8; 8; -8; -4; 4; 4; -4; -3; -3; -3; -3; 3; 3; 3; 3; -4; -4; 4; 4; -2; -2; 2; 2; -4; 4; -4; 4; -2; 2; -2; 2; -2; -2; -2; -2; -1; -1; -1; -1];
  [2; 0; 0; 0; -2; 0; 0; 0; 0; 0; 0; 0; 0; 0; 0; 0; 0; 0; 0; 0; 0; 0; 0; 0; 1; 0; 0; 0; 1; 0; 0; 0; 0; 0; 0; 0; 0; 0; 0; 0; 0; 0; 0; 0; 0; 0; 0; 0; 0; 0; 0; 0; 0; 0; 0; 0; 0; 0; 0; 0; 0; 0; 0; 0];
  [0; 0; 0; 0; 0; 0; 0; 0; 2; 0; 0; 0; -2; 0; 0; 0; 0; 0; 0; 0; 0; 0; 0; 0; 0; 0; 0; 0; 0; 0; 0; 0; 0; 0; 0; 0; 0; 0; 0; 0; 1; 0; 0; 0; 1; 0; 0; 0; 0; 0; 0; 0; 0; 0; 0; 0; 0; 0; 0; 0; 0; 0; 0; 0];
  [-6; 6; 0; 0; 6; -6; 0; 0; -4; -2; 0; 0; 4; 2; 0; 0; 0; 0; 0; 0; 0; 0; 0; 0; -3; 3; 0; 0; -3; 3; 0; 0; 0; 0; 0; 0; 0; 0; 0; 0; -2; -1; 0; 0; -2; -1; 0; 0; 0; 0; 0; 0; 0; 0; 0; 0; 0; 0; 0; 0; 0; 0; 0; 0];
  [4; -4; 0; 0; -4; 4; 0; 0; 2; 2; 0; 0; -2; -2; 0; 0; 0; 0; 0; 0; 0; 0; 0; 0; 2; -2; 0; 0; 2; -2; 0; 0; 0; 0; 0; 0; 0; 0; 0; 0; 1; 1; 0; 0; 1; 1; 0; 0; 0; 0; 0; 0; 0; 0; 0; 0; 0; 0; 0; 0; 0; 0; 0; 0];
  [0; 0; 0; 0; 0; 0; 0; 0; 0; 0; 0; 0; 0; 0; 0; 0; 2; 0; 0; 0; -2; 0; 0; 0; 0; 0; 0; 0; 0; 0; 0; 0; 0; 0; 0; 0; 0; 0; 0; 0; 0; 0; 0; 0; 0; 0; 0; 0; 1; 0; 0; 0; 1; 0; 0; 0; 0; 0; 0; 0; 0; 0; 0; 0];
  [0; 0; 0; 0; 0; 0; 0; 0; 0; 0; 0; 0; 0; 0; 0; 0; 0; 0; 0; 0; 0; 0; 0; 0; 0; 0; 0; 0; 0; 0; 0; 0; 2; 0; 0; 0; -2; 0; 0; 0; 0; 0; 0; 0; 0; 0; 0; 0; 0; 0; 0; 0; 0; 0; 0; 0; 1; 0; 0; 0; 1; 0; 0; 0];
  [0; 0; 0; 0; 0; 0; 0; 0; 0; 0; 0; 0; 0; 0; 0; 0; -6; 6; 0; 0; 6; -6; 0; 0; 0; 0; 0; 0; 0; 0; 0; 0; -4; -2; 0; 0; 4; 2; 0; 0; 0; 0; 0; 0; 0; 0; 0; 0; -3; 3; 0; 0; -3; 3; 0; 0; -2; -1; 0; 0; -2; -1; 0; 0];
  [0; 0; 0; 0; 0; 0; 0; 0; 0; 0; 0; 0; 0; 0; 0; 0; 4; -4; 0; 0; -4; 4; 0; 0; 0; 0; 0; 0; 0; 0; 0; 0; 2; 2; 0; 0; -2; -2; 0; 0; 0; 0; 0; 0; 0; 0; 0; 0; 2; -2; 0; 0; 2; -2; 0; 0; 1; 1; 0; 0; 1; 1; 0; 0];
  [-6; 0; 6; 0; 6; 0; -6; 0; 0; 0; 0; 0; 0; 0; 0; 0; -4; 0; -2; 0; 4; 0; 2; 0; -3; 0; 3; 0; -3; 0; 3; 0; 0; 0; 0; 0; 0; 0; 0; 0; 0; 0; 0; 0; 0; 0; 0; 0; -2; 0; -1; 0; -2; 0; -1; 0; 0; 0; 0; 0; 0; 0; 0; 0];
  [0; 0; 0; 0; 0; 0; 0; 0; -6; 0; 6; 0; 6; 0; -6; 0; 0; 0; 0; 0; 0; 0; 0; 0; 0; 0; 0; 0; 0; 0; 0; 0; -4; 0; -2; 0; 4; 0; 2; 0; -3; 0; 3; 0; -3; 0; 3; 0; 0; 0; 0; 0; 0; 0; 0; 0; -2; 0; -1; 0; -2; 0; -1; 0];
  [18; -18; -18; 18; -18; 18; 18; -18; 12; 6; -12; -6; -12; -6; 12; 6; 12; -12; 6; -6; -12; 12; -6; 6; 9; -9; -9; 9; 9; -9; -9; 9; 8; 4; 4; 2; -8; -4; -4; -2; 6; 3; -6; -3; 6; 3; -6; -3; 6; -6; 3; -3; 6; -6; 3; -3; 4; 2; 2; 1; 4; 2; 2; 1];
  [-12; 12; 12; -12; 12; -12; -12; 12; -6; -6; 6; 6; 6; 6; -6; -6; -8; 8; -4; 4; 8; -8; 4; -4; -6; 6; 6; -6; -6; 6; 6; -6; -4; -4; -2; -2; 4; 4; 2; 2; -3; -3; 3; 3; -3; -3; 3; 3; -4; 4; -2; 2; -4; 4; -2; 2; -2; -2; -1; -1; -2; -2; -1; -1];
  [4; 0; -4; 0; -4; 0; 4; 0; 0; 0; 0; 0; 0; 0; 0; 0; 2; 0; 2; 0; -2; 0; -2; 0; 2; 0; -2; 0; 2; 0; -2; 0; 0; 0; 0; 0; 0; 0; 0; 0; 0; 0; 0; 0; 0; 0; 0; 0; 1; 0; 1; 0; 1; 0; 1; 0; 0; 0; 0; 0; 0; 0; 0; 0];
  [0; 0; 0; 0; 0; 0; 0; 0; 4; 0; -4; 0; -4; 0; 4; 0; 0; 0; 0; 0; 0; 0; 0; 0; 0; 0; 0; 0; 0; 0; 0; 0; 2; 0; 2; 0; -2; 0; -2; 0; 2; 0; -2; 0; 2; 0; -2; 0; 0; 0; 0; 0; 0; 0; 0; 0; 1; 0; 1; 0; 1; 0; 1; 0];
  [-12; 12; 12; -12; 12; -12; -12; 12; -8; -4; 8; 4; 8; 4; -8; -4; -6; 6; -6; 6; 6; -6; 6; -6; -6; 6; 6; -6; -6; 6; 6; -6; -4; -2; -4; -2; 4; 2; 4; 2; -4; -2; 4; 2; -4; -2; 4; 2; -3; 3; -3; 3; -3; 3; -3; 3; -2; -1; -2; -1; -2; -1; -2; -1];
  [8; -8; -8; 8; -8; 8; 8; -8; 4; 4; -4; -4; -4; -4; 4; 4; 4; -4; 4; -4; -4; 4; -4; 4; 4; -4; -4; 4; 4; -4; -4; 4; 2; 2; 2; 2; -2; -2; -2; -2; 2; 2; -2; -2; 2; 2; -2; -2; 2; -2; 2; -2; 2; -2; 2; -2; 1; 1; 1; 1; 1; 1; 1; 1]]%Z.
Definition corners3 (f : bool -> bool -> bool -> R) : list R :=
  [f false false false; f true false false; f false true false; f true true false;
   f false false true; f true false true; f false true true; f true true true].
Definition data3 := bool -> bool -> bool -> bool -> bool -> bool -> R.
Definition fs3 (dw dv dvp : R) (F : data3) : list R :=
  corners3 (F false false false) ++ map (fun y => dw * y) (corners3 (F true false false))
  ++ map (fun y => dv * y) (corners3 (F false true false)) ++ map (fun y => dvp * y) (corners3 (F false false true))
  ++ map (fun y => dw * dv * y) (corners3 (F true true false)) ++ map (fun y => dw * dvp * y) (corners3 (F true false true))
  ++ map (fun y => dv * dvp * y) (corners3 (F false true true)) ++ map (fun y => dw * dv * dvp * y) (corners3 (F true true true)).
Definition coeffs3 (dw dv dvp : R) (F : data3) : list R :=
  vdiv (matvec A3 (fs3 dw dv dvp F)) (outer (outer (pow4 dvp) (pow4 dv)) (pow4 dw)).
Definition spline3 (dw dv dvp : R) (F : data3) (hw hv hvp : R) : R :=
  dotR (coeffs3 dw dv dvp F) (outer (outer (powers hvp) (powers hv)) (powers hw)).
