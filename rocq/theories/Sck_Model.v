(** Model of the self-check of the self-energy, correlation_functions/two_point/selfenergy.hpp:408-425 SelfEnergy::check_symmetries, with
    max_norm (data_structures.hpp:379-385). Values are complex rationals, [None] is a value that is not a number (one of its parts is).
    [valsmooth i_in v]: the retarded self-energy (iK = 0, 207-226) including the asymptotic value. *)
From Coq Require Import QArith.
From Verif Require Import Prelude Cplx.
Open Scope Q_scope.

Definition oadd (a b : option cplx) : option cplx := match a, b with Some x, Some y => Some (x + y)%C | _, _ => None end.
Section Check.
Variable valsmooth : nat -> Q -> option cplx.
Variable asymp_val_R : cplx.
(** 416 *)
Definition phs_deviation (v : Q) (j : nat) : option cplx :=
  oadd (oadd (valsmooth j v) (option_map Cconj (valsmooth j (- v)))) (Some (Cneg (Cscale 2 asymp_val_R))).
(** 413-417: dev[i] is assigned for every internal index *)
Definition dev_entry (n_in : nat) (v : Q) : option cplx :=
  fold_left (fun _ j => phs_deviation v j) (seq 0 n_in) (Some C0).
(** data_structures.hpp:379-385, squared; std::max(out, x) is out if out < x is false *)
Definition max_norm2 (l : list (option cplx)) : Q :=
  fold_left (fun out z => match z with Some z => if Qle_bool (Cnorm2 z) out then out else Cnorm2 z | None => out end) l 0.
(** the number printed (squared); [None]: nothing is printed *)
Definition check_symmetries (particle_hole_symmetry : bool) (n_in : nat) (freqs : list Q) : option Q :=
  if particle_hole_symmetry then Some (max_norm2 (map (dev_entry n_in) freqs)) else None.
End Check.
