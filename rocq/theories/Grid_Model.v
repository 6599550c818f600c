(** Frequency grids.
    Model of grids/frequency_grid.{hpp,c++}. Doubles are real numbers (no rounding); assertions on finiteness are
    left out, the theorems show where the formulas are well defined. [None] is an access outside an array. *)
From Coq Require Import Reals.
From Verif Require Import Prelude.
Open Scope R_scope.

(** utilities/math_utils.c++:21-23 *)
Definition sgn (x : R) : R := (if Rle_dec 0 x then 1 else 0) - (if Rle_dec x 0 then 1 else 0).

(** frequency_grid.c++:250-320 *)
Definition grid_transf_v1 (w W c : R) : R := let d := w - c in d / sqrt (W * W + d * d).
Definition grid_transf_inv_v1 (t W c : R) : R := c + W * t / sqrt (1 - t * t).
Definition integration_measure_v1 (t W : R) : R := let temp := sqrt (1 - t * t) in W / (temp * temp * temp).
Definition grid_transf_v2 (w W c : R) : R :=
  let d := w - c in let w2 := d * d in
  sgn d * sqrt ((sqrt (w2 * w2 + 4 * w2 * W * W) - w2) / 2) / W.
Definition grid_transf_inv_v2 (t W c : R) : R := c + W * t * Rabs t / sqrt (1 - t * t).
Definition integration_measure_v2 (t W : R) : R :=
  let temp := sqrt (1 - t * t) in W * sgn t * t * (2 - t * t) / (temp * temp * temp).
Definition almost_zero : R := / 1000000000000.
Definition grid_transf_v3 (w W c : R) : R :=
  let d := w - c in
  if Rlt_dec (Rabs d) almost_zero then 0 else (- W + sqrt (4 * d * d + W * W)) / 2 / d.
Definition grid_transf_inv_v3 (t W c : R) : R := c + W * t / (1 - t * t).
Definition integration_measure_v3 (t W : R) : R := let temp := t * t in W * (1 + temp) / (1 - temp) / (1 - temp).
Definition grid_transf_v4 (w W c : R) : R :=
  let d := w - c in let a := Rabs d in sgn d * sqrt (a / (a + W)).
Definition grid_transf_inv_v4 (t W c : R) : R := c + W * sgn t * t * t / (1 - t * t).
Definition integration_measure_v4 (t W : R) : R := let temp := 1 - t * t in 2 * W * sgn t * t / temp / temp.
Definition grid_transf_lin (w W : R) : R := w / W.
Definition grid_transf_inv_lin (t W : R) : R := t * W.

(** ** eliasGrid *)
Inductive gformalism := GKeldysh | GMatsubaraT0 | GMatsubaraT.
(** [se]: type 'f' and diag_class 1 (self-energy) *)
Record elias := { e_form : gformalism; e_se : bool; e_N : nat; e_upper : R; e_lower : R; e_scale : R; e_center : R;
                  e_purely_positive : bool }.
(** 193-222; frequencies are doubles, so nothing is added for integer frequencies *)
Definition t_from_frequency (g : elias) (w : R) : R :=
  match e_form g with
  | GKeldysh => grid_transf_v2 w (e_scale g) (e_center g)
  | GMatsubaraT0 => if e_se g then grid_transf_v3 w (e_scale g) (e_center g) else grid_transf_v4 w (e_scale g) (e_center g)
  | GMatsubaraT => grid_transf_lin w (e_scale g)
  end.
Definition frequency_from_t (g : elias) (t : R) : R :=
  match e_form g with
  | GKeldysh => grid_transf_inv_v2 t (e_scale g) (e_center g)
  | GMatsubaraT0 => if e_se g then grid_transf_inv_v3 t (e_scale g) (e_center g) else grid_transf_inv_v4 t (e_scale g) (e_center g)
  | GMatsubaraT => grid_transf_inv_lin t (e_scale g)
  end.
(** 29-34 derive_auxiliary_parameters *)
Definition t_upper (g : elias) : R := t_from_frequency g (e_upper g).
Definition t_lower (g : elias) : R := t_from_frequency g (e_lower g).
Definition spacing (g : elias) : R := (t_upper g - t_lower g) / (INR (e_N g) - 1).
(** 10-26 initialize_grid *)
Definition aux_point (g : elias) (i : nat) : R :=
  if (e_purely_positive g && (i =? 0)%nat)%bool then 0 else t_lower g + INR i * spacing g.
Definition grid_point (g : elias) (i : nat) : R :=
  if (e_purely_positive g && (i =? 0)%nat)%bool then 0 else frequency_from_t g (t_lower g + INR i * spacing g).
Definition all_frequencies (g : elias) : list R := map (grid_point g) (seq 0 (e_N g)).
Definition auxiliary_grid (g : elias) : list R := map (aux_point g) (seq 0 (e_N g)).

(** conversion of a double to int: towards zero *)
Definition trunc (r : R) : Z := (if Rle_dec 0 r then Int_part r else - Int_part (- r))%Z.
Definition read (l : list R) (i : Z) : option R := if (i <? 0)%Z then None else nth_error l (Z.to_nat i).
(** 166-173: correction of the rounded-down index [index]; the elements are read before the index is compared *)
Definition correct_index (freqs : list R) (N index : Z) (w : R) : option Z :=
  next <- read freqs (index + 1) ;;
  let index := (if Rlt_dec next w then if index <? N - 1 then index + 1 else index else index)%Z in
  here <- read freqs index ;;
  let index := (if Rlt_dec w here then if 0 <? index then index - 1 else index else index)%Z in
  Some (Z.min (N - 2) (Z.max 0 index)).
(** 157-178 get_grid_index(t, w), INTERPOLATION other than linear (default linear_on_aux) *)
Definition get_grid_index (g : elias) (w : R) : option Z :=
  let t_rescaled := (t_from_frequency g w - t_lower g) / spacing g in
  correct_index (all_frequencies g) (Z.of_nat (e_N g)) (trunc t_rescaled) w.
(** the same for INTERPOLATION==linear, 161-164 *)
Definition get_grid_index_linear (g : elias) (w : R) : Z :=
  Z.min (Z.of_nat (e_N g) - 2) (Z.max 0 (trunc ((t_from_frequency g w - t_lower g) / spacing g))).

(** frequency_grid.hpp:167-173 set_w_center *)
Definition set_w_center (g : elias) (c : R) : elias :=
  let half := (e_upper g - e_lower g) * (1 / 2) in
  {| e_form := e_form g; e_se := e_se g; e_N := e_N g; e_upper := half + c; e_lower := - half + c;
     e_scale := e_scale g; e_center := c; e_purely_positive := e_purely_positive g |}.
(** 130-165 set_essential_parameters (dense grid for finite-temperature Matsubara) *)
Definition set_essential_parameters (g : elias) (wmax scale : R) : elias :=
  {| e_form := e_form g; e_se := e_se g; e_N := e_N g; e_upper := wmax;
     e_lower := if e_purely_positive g then 0 else - wmax;
     e_scale := scale; e_center := e_center g; e_purely_positive := e_purely_positive g |}.
(** 165-166 *)
Definition set_w_upper (g : elias) (wmax : R) : elias := set_essential_parameters g wmax (e_scale g).
(** the interface "guess": frequency_grid.c++:35-104 for REG 2 in the Keldysh or zero-temperature formalism;
    [factor]: Delta_factor of the class *)
Definition guess_elias (g : elias) (factor Gamma Lambda : R) : elias :=
  let scale := factor * ((Lambda + Gamma) / 2) in set_essential_parameters g (scale * 100) scale.

(** parameters/technical_parameters.hpp:15 *)
Definition inter_tol : R := / 100000.
(** frequency_grid.hpp:423-426 is_in_box for one frequency (K1 and self-energy); the tests for two and three
    frequencies (427-446, Keldysh and zero temperature) apply it to each grid *)
Definition is_in_box (g : elias) (w : R) : bool := if Rlt_dec (Rabs (w - e_center g)) (e_upper g + inter_tol) then true else false.

(** ** hybridGrid, HYBRID_GRID_OPTION 0 *)
Record hybrid := { h_N : nat; h_upper : R; h_lower : R; h_w1 : R; h_w2 : R; h_pos : bool }.
(** set in guess_essential_parameters, 449-458 *)
Definition h_t_upper (g : hybrid) : R := (INR (h_N g) - 1) * (if h_pos g then 1 else 1 / 2).
Definition h_t_lower (g : hybrid) : R := if h_pos g then 0 else - ((INR (h_N g) - 1) * (1 / 2)).
(** 366-389 *)
Definition temp (g : hybrid) : R := h_w1 g + 2 * h_w2 g.
Definition temp_quad (g : hybrid) : R := temp g * h_upper g - h_w2 g * h_w2 g.
Definition h_a0 (g : hybrid) : R := (2 * h_t_upper g * h_w1 g * h_upper g) / temp_quad g.
Definition h_a1 (g : hybrid) : R := (h_t_upper g * (h_w1 g + h_w2 g) * h_upper g) / temp_quad g.
Definition recip_curvature_quad (g : hybrid) : R :=
  (4 * h_t_upper g * h_t_upper g * h_w1 g * h_upper g * h_upper g) / (temp_quad g * temp_quad g).
Definition recip_slope_lin (g : hybrid) : R := h_t_upper g * h_upper g / temp_quad g.
Definition factor_rat (g : hybrid) : R := h_w2 g * h_w2 g / temp g.
Definition rescale_rat (g : hybrid) : R := (h_t_upper g * h_upper g * temp g) / temp_quad g.
Definition h_spacing (g : hybrid) : R := (h_t_upper g - h_t_lower g) / (INR (h_N g) - 1).
(** 470-497 *)
Definition h_frequency_from_t (g : hybrid) (t : R) : R :=
  let a := Rabs t in
  if Rlt_dec a (h_a0 g) then a * a / recip_curvature_quad g * sgn t
  else if Rlt_dec a (h_a1 g) then (h_w1 g + (a - h_a0 g) / recip_slope_lin g) * sgn t
  else factor_rat g / (1 - a / rescale_rat g) * sgn t.
(** 499-525 *)
Definition h_t_from_frequency (g : hybrid) (w : R) : R :=
  let a := Rabs w in
  if Rlt_dec a (h_w1 g) then sqrt (a * recip_curvature_quad g) * sgn w
  else if Rlt_dec a (h_w2 g) then ((a - h_w1 g) * recip_slope_lin g + h_a0 g) * sgn w
  else (1 - factor_rat g / a) * rescale_rat g * sgn w.
(** 527-544 *)
Definition h_is_mid (g : hybrid) (i : nat) : bool :=
  ((h_pos g && (i =? 0)%nat) || (negb (h_pos g) && Nat.odd (h_N g) && (i =? h_N g / 2)%nat))%bool.
Definition h_aux_point (g : hybrid) (i : nat) : R := if h_is_mid g i then 0 else h_t_lower g + h_spacing g * INR i.
Definition h_grid_point (g : hybrid) (i : nat) : R :=
  if h_is_mid g i then 0 else h_frequency_from_t g (h_t_lower g + h_spacing g * INR i).
(** 562-576 get_grid_index; 1e-12 is added before truncation *)
Definition h_get_grid_index (g : hybrid) (w : R) : Z :=
  Z.min (Z.of_nat (h_N g) - 2) (Z.max 0 (trunc ((h_t_from_frequency g w - h_t_lower g) + almost_zero))).
(** frequency_grid.hpp:253-260 set_essential_parameters, set_w_upper; 262-267 update_pos_section_boundaries *)
Definition h_set_w_upper (g : hybrid) (wmax : R) : hybrid :=
  {| h_N := h_N g; h_upper := wmax; h_lower := - wmax; h_w1 := h_w1 g; h_w2 := h_w2 g; h_pos := h_pos g |}.
Definition h_update_boundaries (g : hybrid) (b0 b1 : R) : hybrid :=
  let n0 := Rmin (h_upper g) b0 in
  {| h_N := h_N g; h_upper := h_upper g; h_lower := h_lower g; h_w1 := n0; h_w2 := Rmax n0 b1; h_pos := h_pos g |}.
(** 391-460 guess_essential_parameters: section boundaries and upper frequency for class 1, 2, 3 *)
Inductive gtype := Gb | Gf.
Definition h_guess (cls : nat) (ty : gtype) (Delta : R) : R * R * R :=
  match cls, ty with
  | 1%nat, Gb => (20 * Delta, 30 * Delta, 5000 * 15 * Delta)
  | 1%nat, Gf => (25, 27 * Delta, 40 * 15 * Delta)
  | 2%nat, Gb => (6 * Delta, 20 * Delta, 80 * 15 * Delta)
  | 2%nat, Gf => (3 * Delta, 10 * Delta, 40 * 15 * Delta)
  | _, Gb => (Delta, 3 * Delta, 30 * 15 * Delta)
  | _, Gf => (Delta, 3 * Delta, 15 * 15 * Delta)
  end.
Definition h_make (N : nat) (pos : bool) (p : R * R * R) : hybrid :=
  let '(w1, w2, wu) := p in
  {| h_N := N; h_upper := wu; h_lower := if pos then 0 else - wu; h_w1 := w1; h_w2 := w2; h_pos := pos |}.
