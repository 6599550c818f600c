(** Interpolation of stored data to a new frequency grid. Model of correlation_functions/n_point/data_buffer.hpp:538-561 (update_grid), called by
    529-536 (rescaled grid after every step of the flow) and 563-650 (optimize_grid; shrink_freq_box returns the grid unchanged, its body is commented out:
    data_container.hpp:384-448). Elias grids (GRID 0), Keldysh or zero temperature. All threads execute the same loop and write the same values, which is
    modelled as one pass. [None]: access outside of an array. *)
From Coq Require Import Reals.
From Verif Require Import Prelude Idx_Model Arr_Model Grid_Model Interp_Model.
Open Scope Z_scope.

(** grids/frequency_grid.hpp:630-671 get_freqs_w: the frequencies of a tuple of frequency indices *)
Definition freqs_of (gs : list elias) (is : list Z) : list R := map (fun p => grid_point (fst p) (Z.to_nat (snd p))) (combine gs is).
(** 546-557: one element of the new data *)
Definition update_value (gold gnew : list elias) (pos : nat) (a : marray R) (iflat : Z) : option R :=
  idx <- getMultIndex iflat (m_length a) ;;
  r <- interpolate (map elias_axis gold) pos 1 a (freqs_of gnew (firstn (length gnew) (skipn pos idx))) idx ;;
  nth_error r 0.
(** 538-561 *)
Definition update_grid (gold gnew : list elias) (pos : nat) (a : marray R) : option (marray R) :=
  els <- osequence (map (fun i => update_value gold gnew pos a (Z.of_nat i)) (seq 0 (length (m_elements a)))) ;;
  Some (Marray (m_length a) (m_cumul a) els).
