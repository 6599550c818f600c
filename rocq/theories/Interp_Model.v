(** Interpolation of stored data on frequency grids.
    Model of correlation_functions/n_point/data_buffer.hpp (Interpolator), grids/frequency_grid.hpp
    (bufferFrequencyGrid), interpolations/InterpolatorLinOrSloppy.hpp and
    correlation_functions/two_point/selfenergy.hpp. Doubles are real numbers; a complex buffer is treated as two real
    ones (all weights are real). GRID is 0 or 1, so K2_convert2internalFreqs and K3_convert2internalFreqs do nothing.
    [None]: access outside an array. *)
From Coq Require Import Reals.
From Verif Require Import Prelude Arr_Model Grid_Model.
Open Scope R_scope.

(** what an interpolator uses of a grid: the index search, the coordinate and its values at the grid points *)
Record axis := { ax_index : R -> option Z; ax_coord : R -> R; ax_pts : list R; ax_center : R; ax_upper : R }.
(** inter == linear_on_aux on an elias grid (default) *)
Definition elias_axis (g : elias) : axis :=
  {| ax_index := get_grid_index g; ax_coord := t_from_frequency g; ax_pts := auxiliary_grid g;
     ax_center := e_center g; ax_upper := e_upper g |}.
(** inter == linear on an elias grid *)
Definition elias_axis_linear (g : elias) : axis :=
  {| ax_index := fun w => Some (get_grid_index_linear g w); ax_coord := fun w => w; ax_pts := all_frequencies g;
     ax_center := e_center g; ax_upper := e_upper g |}.
(** inter == linear_on_aux on a hybrid grid *)
Definition hybrid_axis (g : hybrid) : axis :=
  {| ax_index := fun w => Some (h_get_grid_index g w); ax_coord := h_t_from_frequency g;
     ax_pts := map (h_aux_point g) (seq 0 (h_N g)); ax_center := 0; ax_upper := h_upper g |}.

(** grids/frequency_grid.hpp:456-511 get_grid_index, 513-573 get_auxgrid_index: for each frequency the index and the
    normalised distance from the lower neighbour *)
Definition locate (a : axis) (w : R) : option (Z * R) :=
  i <- ax_index a w ;; lo <- read (ax_pts a) i ;; hi <- read (ax_pts a) (i + 1) ;;
  Some (i, (ax_coord a w - lo) / (hi - lo)).
(** frequency_grid.hpp:431-453 is_in_box in the Keldysh and zero-temperature formalisms *)
Definition axis_in_box (a : axis) (w : R) : bool :=
  if Rlt_dec (Rabs (w - ax_center a)) (ax_upper a + inter_tol) then true else false.
Definition in_box (axs : list axis) (ws : list R) : bool := forallb (fun p => axis_in_box (fst p) (snd p)) (combine axs ws).

(** data_buffer.hpp:41-81 get_weights *)
Fixpoint mul_at (w : list R) (k : nat) (f : R) : list R :=
  match w, k with
  | [], _ => []
  | x :: r, O => x * f :: r
  | x :: r, S k' => x :: mul_at r k' f
  end.
Definition mul_all (w : list R) (l : list (nat * R)) : list R := fold_left (fun w p => mul_at w (fst p) (snd p)) l w.
Definition get_weights (ds : list R) : option (list R) :=
  match ds with
  | [d0] => Some [1 - d0; d0]
  | [d0; d1] =>
      let w := repeat (1 - d0) 2 ++ repeat d0 2 in
      Some (mul_all w (flat_map (fun j => [((2 * j)%nat, 1 - d1); ((2 * j + 1)%nat, d1)]) (seq 0 2)))
  | [d0; d1; d2] =>
      let w := repeat (1 - d0) 4 ++ repeat d0 4 in
      let w := mul_all w (flat_map (fun j => flat_map (fun i => [((4 * j + i)%nat, 1 - d1); ((4 * j + i + 2)%nat, d1)]) (seq 0 2)) (seq 0 2)) in
      Some (mul_all w (flat_map (fun j => [((j * 2)%nat, 1 - d2); ((1 + j * 2)%nat, d2)]) (seq 0 4)))
  | _ => None
  end.
(** [values * weights], 174-181: row [r] of the result *)
Fixpoint dot (ws : list R) (cols : list (list R)) (r : nat) : R :=
  match ws, cols with w :: ws', c :: cols' => nth r c 0 * w + dot ws' cols' r | _, _ => 0 end.
(** the part of interpolate_impl inside the box, for given cell and distances *)
Definition interpolate_cell (pos vecsize : nat) (a : marray R) (indices : list Z) (cell : list Z) (ds : list R) : option (list R) :=
  let n := length cell in
  ws <- get_weights ds ;;
  cols <- get_values n pos vecsize 2 a (firstn pos indices ++ cell ++ skipn (pos + n) indices) ;;
  Some (map (dot ws cols) (seq 0 vecsize)).
(** 84-199 interpolate_impl, Keldysh formalism or zero temperature (no DENSEGRID); the assertions on finiteness are
    left out *)
Definition interpolate (axs : list axis) (pos vecsize : nat) (a : marray R) (ws : list R) (indices : list Z) : option (list R) :=
  if in_box axs ws then
    cells <- osequence (map (fun p => locate (fst p) (snd p)) (combine axs ws)) ;;
    interpolate_cell pos vecsize a indices (map fst cells) (map snd cells)
  else Some (repeat 0 vecsize).

(** ** InterpolatorLinOrSloppy.hpp: templates for functions of grid indices *)
(** 101-205 interpolate_lin1D.., 191-284 interpolate_lin_on_aux1D.. (the axis decides which) *)
Definition lin1D (ax : axis) (x : R) (val : Z -> option R) : option R :=
  p <- locate ax x ;; let '(i, xd) := p in
  f1 <- val i ;; f2 <- val (i + 1)%Z ;; Some ((1 - xd) * f1 + xd * f2).
Definition lin2D (ax ay : axis) (x y : R) (val : Z -> Z -> option R) : option R :=
  p <- locate ax x ;; let '(i, xd) := p in
  f1 <- lin1D ay y (val i) ;; f2 <- lin1D ay y (val (i + 1)%Z) ;; Some ((1 - xd) * f1 + xd * f2).
Definition lin3D (ax ay az : axis) (x y z : R) (val : Z -> Z -> Z -> option R) : option R :=
  p <- locate ax x ;; let '(i, xd) := p in
  f1 <- lin2D ay az y z (val i) ;; f2 <- lin2D ay az y z (val (i + 1)%Z) ;; Some ((1 - xd) * f1 + xd * f2).
(** 296-390 interpolate_sloppycubic1D, 2D, 3D *)
Definition lagrange4 (t x0 x1 x2 x3 f0 f1 f2 f3 : R) : R :=
  (t - x1) * (t - x2) * (t - x3) / ((x0 - x1) * (x0 - x2) * (x0 - x3)) * f0
  + (t - x0) * (t - x2) * (t - x3) / ((x1 - x0) * (x1 - x2) * (x1 - x3)) * f1
  + (t - x0) * (t - x1) * (t - x3) / ((x2 - x0) * (x2 - x1) * (x2 - x3)) * f2
  + (t - x0) * (t - x1) * (t - x2) / ((x3 - x0) * (x3 - x1) * (x3 - x2)) * f3.
Definition sloppy_step (ax : axis) (x : R) (f : Z -> option R) : option R :=
  i <- ax_index ax x ;;
  x0 <- read (ax_pts ax) (i - 1) ;; x1 <- read (ax_pts ax) i ;; x2 <- read (ax_pts ax) (i + 1) ;; x3 <- read (ax_pts ax) (i + 2) ;;
  f0 <- f (i - 1)%Z ;; f1 <- f i ;; f2 <- f (i + 1)%Z ;; f3 <- f (i + 2)%Z ;;
  Some (lagrange4 (ax_coord ax x) x0 x1 x2 x3 f0 f1 f2 f3).
Definition sloppy1D (ax : axis) (x : R) (val : Z -> option R) : option R := sloppy_step ax x val.
Definition sloppy2D (ax ay : axis) (x y : R) (val : Z -> Z -> option R) : option R :=
  sloppy_step ax x (fun i => sloppy1D ay y (val i)).
Definition sloppy3D (ax ay az : axis) (x y z : R) (val : Z -> Z -> Z -> option R) : option R :=
  sloppy_step ax x (fun i => sloppy2D ay az y z (val i)).

(** ** finite-temperature Matsubara formalism: dense grids (frequencies in units of pi T) *)
(** frequency_grid.c++:119-123 get_grid_index with DENSEGRID *)
Definition dense_index (g : elias) (w : R) : Z := trunc ((t_from_frequency g w - t_lower g) / spacing g + 1 / 10).
(** math_utils.c++:107-126; [%] of C++ rounds towards zero *)
Definition flip_int (w : R) : Z := Z.rem (- trunc (Rabs (w / 2))) 2.
Definition flip (w : R) : R := IZR (flip_int w * 2).
(** stored data: value for the frequency indices (the other indices are fixed) *)
(** data_buffer.hpp:100-107, 205-226: self-energy (rank of SE_config) *)
Definition dense_se (g : elias) (val : Z -> R) (w : R) : R :=
  if is_in_box g w then val (dense_index g w)
  else e_upper g / Rabs w * val (if Rle_dec w 0 then 0 else Z.of_nat (e_N g) - 1)%Z.
(** 227-240: one frequency (K1) *)
Definition dense_k1 (g : elias) (val : Z -> R) (w : R) : R :=
  if is_in_box g w then val (dense_index g w)
  else e_upper g * e_upper g / (Rabs w * Rabs w) * val 0%Z.
(** frequency_grid.hpp:438-440 *)
Definition dense_in_box2 (g1 g2 : elias) (w v : R) : bool :=
  if Rlt_dec (Rabs w) (e_upper g1 + inter_tol) then
    if Rlt_dec (- e_upper g2 - inter_tol) v then
      if Rlt_dec v (e_upper g2 + flip w + inter_tol) then true else false else false else false.
(** 243-275: two frequencies (K2) *)
Definition dense_k2 (g1 g2 : elias) (val : Z -> Z -> R) (w v : R) : R :=
  if dense_in_box2 g1 g2 w v then val (dense_index g1 w) (dense_index g2 v)
  else if Rlt_dec (e_upper g1) (Rabs w) then 0
  else (e_upper g2 * e_upper g2) / (v * v) *
       val (dense_index g1 w) (if Rle_dec v (- e_upper g2) then 0 else Z.of_nat (e_N g2) - 1 + flip_int w)%Z.
(** 276-315: three frequencies (K3); the two fermionic limits are those of the secondary grid *)
Definition dense_tail (g2 : elias) (w v : R) : Z * R :=
  let vmax := e_upper g2 in
  if Rle_dec v (- vmax) then (0%Z, vmax * vmax / (v * v))
  else if Rle_dec vmax v then ((Z.of_nat (e_N g2) - 1 + flip_int w)%Z, vmax * vmax / (v * v))
  else (dense_index g2 v, 1).
Definition dense_k3 (g1 g2 g3 : elias) (val : Z -> Z -> Z -> R) (w v vp : R) : R :=
  if (is_in_box g1 w && is_in_box g2 v && is_in_box g3 vp)%bool then val (dense_index g1 w) (dense_index g2 v) (dense_index g3 vp)
  else if Rlt_dec (e_upper g1) (Rabs w) then 0
  else let '(iv, fv) := dense_tail g2 w v in let '(ivp, fvp) := dense_tail g2 w vp in
       1 * fv * fvp * val (dense_index g1 w) iv ivp.

(** ** self-energy, Keldysh formalism *)
(** selfenergy.hpp: stored data (index order Keldysh, frequency, internal) and asymptotic value of the retarded part *)
Record selfenergy := { s_data : marray R; s_asymp : R }.
(** 207-226 valsmooth (BARE_SE_FEEDBACK not defined) *)
Definition valsmooth (g : elias) (s : selfenergy) (iK : Z) (v : R) (i_in : Z) : option R :=
  if Rlt_dec (e_upper g + inter_tol) (Rabs v) then Some ((1 - IZR iK) * s_asymp s)
  else r <- interpolate [elias_axis g] 1 1 (s_data s) [v] [iK; 0%Z; i_in] ;;
       x <- nth_error r 0 ;; Some (x + (1 - IZR iK) * s_asymp s).
(** 82-144 operators; both operands have the same grid and dimensions (data_buffer.hpp:641-653 checks this in debug
    mode), the element-wise operations are those of the array class *)
Fixpoint zip (f : R -> R -> R) (x y : list R) : list R :=
  match x, y with a :: x', b :: y' => f a b :: zip f x' y' | _, _ => [] end.
Definition arr_zip (f : R -> R -> R) (a b : marray R) : marray R := Marray (m_length a) (m_cumul a) (zip f (m_elements a) (m_elements b)).
Definition arr_map (f : R -> R) (a : marray R) : marray R := Marray (m_length a) (m_cumul a) (map f (m_elements a)).
Definition se_add (s t : selfenergy) : selfenergy := {| s_data := arr_zip Rplus (s_data s) (s_data t); s_asymp := s_asymp s + s_asymp t |}.
Definition se_sub (s t : selfenergy) : selfenergy := {| s_data := arr_zip Rminus (s_data s) (s_data t); s_asymp := s_asymp s - s_asymp t |}.
Definition se_mul (s : selfenergy) (c : R) : selfenergy := {| s_data := arr_map (fun x => x * c) (s_data s); s_asymp := s_asymp s * c |}.
(** 88-92: adding a number *)
Definition se_add_number (s : selfenergy) (c : R) : selfenergy := {| s_data := arr_map (fun x => x + c) (s_data s); s_asymp := s_asymp s |}.
(** 162-166 initialize(valR, valK) *)
Definition se_initialize (s : selfenergy) (valR valK : R) : selfenergy := {| s_data := s_data s; s_asymp := valR |}.
