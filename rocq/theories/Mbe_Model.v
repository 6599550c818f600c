(** Model of the evaluation of a bubble at finite-temperature Matsubara frequencies for one transfer frequency: bubble/bubble_function.hpp:302-372 (which
    entries are evaluated), 422-495 (sum and tails, VECTORIZED_INTEGRATION 1 and 0), 504-521 (storage), 733-880 (get_trafo, branches of this case).
    Frequencies are integers in units of pi T (freqType is int), values are real numbers (PARTICLE_HOLE_SYMM 1), n_spin = n_in = 1. The scalar version with
    DEBUG_SYMMETRIES 0 (769, 805, 856: a vector of integers subscripted twice) does not compile and is left out.
    The sums are those of [Dom_Model]; the vertices enter with the dependence on the external frequencies that the class fixes (same_bare / diff_bare). *)
From Coq Require Import Reals.
From Verif Require Import Prelude Util_Model Dom_Model.
Open Scope Z_scope.

Inductive bclass := bk1 | bk2 | bk2b | bk3.

(** utilities/math_utils.c++:117-126, signFlipCorrection_MF_int *)
Definition sign_flip (w : Z) : Z := Z.rem (- Z.abs (Z.quot w 2)) 2.
(** bubble_function.hpp:423-428 *)
Definition sum_min (pos w : Z) : Z := - pos - Z.abs (Z.quot (Z.quot w 2) 2) + sign_flip w.
Definition sum_max (pos w : Z) : Z := pos - 1 + Z.abs (Z.quot (Z.quot w 2) 2).
Definition lower_tail (pos w : Z) : Z := 2 * sum_min pos w + 1.
Definition upper_tail (pos w : Z) : Z := 2 * sum_max pos w + 1.

(** bubble/bubble.hpp:198-220 for integer frequencies: the two propagators; [p]: channel p *)
Definition leg_1 (p : bool) (vpp w : Z) : option Z :=
  if p then c <- ceil2bfreq_int (Z.quot w 2) ;; Some (vpp + c) else f <- floor2bfreq_int (Z.quot w 2) ;; Some (vpp - f).
Definition leg_2 (p : bool) (vpp w : Z) : option Z :=
  if p then f <- floor2bfreq_int (Z.quot w 2) ;; Some (f - vpp) else c <- ceil2bfreq_int (Z.quot w 2) ;; Some (vpp + c).

Section Evaluation.
  Variables (debug analytic : bool) (n2 n3 pos w : Z).
  Variables (T sign : R).
  Variable ns : nat.                     (* terms of the spin sum *)
  Variable Pi : Z -> nat -> R.           (* internal frequency, term of the spin sum *)
  Variable leftS : Z -> nat -> R.        (* left_same_bare: internal frequency, term *)
  Variable leftD : Z -> Z -> nat -> R.   (* left_diff_bare: external, internal frequency, term *)
  Variable rightS : Z -> nat -> R.
  Variable rightD : Z -> Z -> nat -> R.  (* internal, external frequency, term *)
  (** bubble of the correction function between the two limits, contracted with the spin components of the left and right vertex
      (asymptotic_corrections/correction_functions.hpp:130-330; C113) *)
  Variable contract : Z -> Z -> (nat -> R) -> (nat -> R) -> R.
  (** integrator_onlyTails of an integrand and two limits (C97) *)
  Variable quadrature : (Z -> R) -> Z -> Z -> R.

  Definition left_of (k : bclass) (v vpp : Z) : nat -> R := match k with bk1 | bk2b => leftS vpp | _ => leftD v vpp end.
  Definition right_of (k : bclass) (vpp vp : Z) : nat -> R := match k with bk1 | bk2 => rightS vpp | _ => rightD vpp vp end.
  Definition integrand (k : bclass) (v vp vpp : Z) : R :=
    fold_right Rplus 0%R (map (fun s => (left_of k v vpp s * Pi vpp s * right_of k vpp vp s)%R) (seq 0 ns)).
  (** correction_functions.hpp:133-134: the vertices in the tail are those at the frequency 10*vmin+1 *)
  Definition analytic_tail (k : bclass) (v vp : Z) : R :=
    let far := 10 * lower_tail pos w + 1 in contract (lower_tail pos w) (upper_tail pos w) (left_of k v far) (right_of k far vp).
  (** 901-904 *)
  Definition value_prefactor : R := (sign * (1 / (2 * PI)))%R.

  (** 474-492 *)
  Definition evaluate_scalar (k : bclass) (v vp : Z) : option R :=
    s <- matsubarasum (integrand k v vp) (sum_min pos w) (sum_max pos w) ;;
    let result := (value_prefactor * (2 * PI) * T * s)%R in
    Some (if analytic then (result + value_prefactor * analytic_tail k v vp)%R
          else (result + value_prefactor * (2 * PI) * T * quadrature (integrand k v vp) (lower_tail pos w) (upper_tail pos w))%R).

  (** 433-446: Nmin_v, Nmax_v, Nmin_vp, Nmax_vp, N_vp; nFER2 and nFER3 are even *)
  Definition ranges (k : bclass) : Z * Z * Z * Z * Z :=
    match k with
    | bk1 => (0, 0, 0, 0, 1)
    | bk2 => (Z.quot (- n2) 2, (if debug then Z.quot n2 2 - 1 else -1), 0, 0, 1)
    | bk2b => (0, 0, Z.quot (- n2) 2, (if debug then Z.quot n2 2 - 1 else -1), n2)
    | bk3 => (Z.quot (- n3) 2, (if debug then Z.quot n3 2 - 1 else -1), Z.quot (- n3) 2, Z.quot n3 2 - 1, n3)
    end.
  (** 447-466 *)
  Definition summation_result (k : bclass) (i j : Z) : option R :=
    let '(Nv, Mv, Np, Mp, _) := ranges k in
    s <- matsubarasum_vectorized ns Pi (left_of k) (right_of k) Nv Mv (sum_min pos w) (sum_max pos w) Np Mp (Z.to_nat (- Nv + i)) (Z.to_nat (- Np + j)) ;;
    let result := (s * value_prefactor * (2 * PI) * T)%R in
    Some (if analytic then (result + value_prefactor * analytic_tail k (i * 2 + 1) (j * 2 + 1))%R
          else (result + value_prefactor * PI * T * quadrature (integrand k (i * 2 + 1) (j * 2 + 1)) (lower_tail pos w) (upper_tail pos w))%R).
  (** 468-472; out of range access of the vector: None *)
  Definition write_all (k : bclass) (value : list R) : option (list R) :=
    let '(Nv, Mv, Np, Mp, N_vp) := ranges k in
    fold_left (fun acc i => fold_left (fun acc j =>
      l <- acc ;; x <- summation_result k i j ;; oupd l (Z.to_nat ((- Nv + i) * N_vp + (- Np + j))) x)
      (range Np Mp) acc) (range Nv Mv) (Some value).
  (** 145-170: number of entries that are evaluated together *)
  Definition vector_size (k : bclass) : nat := Z.to_nat match k with bk1 => 1 | bk2 | bk2b => n2 | bk3 => n3 * n3 end.

  (** frequencies of the dense grid of n (even) fermionic frequencies *)
  Definition grid_frequency (n i : Z) : Z := 2 * (i - Z.quot n 2) + 1.
  Definition grid_lower (n : Z) : Z := grid_frequency n 0.
  (** 774-779, 811-819, 341-343: DEBUG_SYMMETRIES 1; true: the entry is evaluated *)
  Definition inside (n v : Z) : bool := negb (- v + sign_flip w <? grid_lower n).
  Definition evaluated_debug (k : bclass) (v vp : Z) : bool :=
    match k with bk1 => true | bk2 => inside n2 v | bk2b => inside n2 vp | bk3 => inside n3 v && inside n3 vp end.
  (** 757-760, 794-797, 846-849: DEBUG_SYMMETRIES 0, vectorised; sign_index of an int *)
  Definition evaluated_vectorised (k : bclass) : bool :=
    if debug then evaluated_debug k (match k with bk2 => grid_lower n2 | bk3 => grid_lower n3 | _ => 0 end) (match k with bk2b => grid_lower n2 | bk3 => grid_lower n3 | _ => 0 end)
    else w <=? 0.

  (** 302-359: the vectorised version evaluates all fermionic frequencies at once, starting with index 0 *)
  Definition vectorised_bubble (k : bclass) : option (list R) :=
    if negb debug && match k with bk2b => true | _ => false end then None      (* class not compiled *)
    else let value := repeat 0%R (vector_size k) in if evaluated_vectorised k then write_all k value else Some value.
  (** the scalar version evaluates one entry; indices of v and v' (0 where the class has none) *)
  Definition scalar_bubble (k : bclass) (iv ivp : Z) : option R :=
    let v := match k with bk2 => grid_frequency n2 iv | bk3 => grid_frequency n3 iv | _ => 0 end in
    let vp := match k with bk2b => grid_frequency n2 ivp | bk3 => grid_frequency n3 ivp | _ => 0 end in
    if evaluated_debug k v vp then evaluate_scalar k v vp else Some 0%R.
End Evaluation.
