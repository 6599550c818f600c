(** Model of one entry of a bubble of two vertices in the Matsubara formalism at finite temperature, VECTORIZED_INTEGRATION 0 and ANALYTIC_TAILS 0:
    bubble/bubble.hpp:137-161, 195-220, bubble/integrand.hpp:358-367, 496-545, 854-998 (without SBE decomposition) and
    bubble/bubble_function.hpp:178-190, 422-430, 474-492, 898-905. The frequencies are integers in units of pi T, kept as rational numbers.
    The vertices are read as in [Bub_Model], with the frequency conversions of the finite-temperature case. [pi] is M_PI; the quadrature of
    the tails is a functional [tails] of the transfer frequency and the integrand (taken as given). With particle-hole symmetry a
    propagator [g] is what the code keeps, the imaginary part. DEBUG_SYMMETRIES 1 (both spin components are computed).
    Simplified: one internal index. *)
From Coq Require Import QArith Qround.
From Verif Require Import Prelude Cplx Keld_Model Util_Model Sym_Model Tab_Model Dec_Model Bub_Model.
From Verif Require Mbu_Model Mbe_Model.
Open Scope Z_scope.

(** integrand.hpp:496-545; there is only the Keldysh index 0 *)
Definition left_part (k : kcl) (st : symmtype) (ch : chan) (V : reader) (s : Z) (f : Q * Q * Q) : cplx :=
  or0 (if left_dressed k then g_left_diff true false 3 st ch (V s 0) f else g_left_same false 3 st ch (V s 0) f).
Definition right_part (k : kcl) (st : symmtype) (ch : chan) (V : reader) (s : Z) (f : Q * Q * Q) : cplx :=
  or0 (if right_dressed k then g_right_diff true false 3 st ch (V s 0) f else g_right_same false 3 st ch (V s 0) f).
(** bubble.hpp:137-161 *)
Definition value_Matsubara (c : cfg) (ch : chan) (diff : bool) (g s : Q -> cplx) (w vpp : Q) : option cplx :=
  v1 <- convert_to_fermionic_frequencies_1 true ch vpp w ;;
  v2 <- convert_to_fermionic_frequencies_2 true ch vpp w ;;
  let result := if diff then (g v1 * s v2 + s v1 * g v2)%C else (g v1 * g v2)%C in
  Some (if phs c then Cscale (-1) result else result).
(** integrand.hpp:854-998: the left vertex at (w, v, vpp), the right vertex at (w, vpp, vp) *)
Definition integrand (c : cfg) (k : kcl) (ch : chan) (diff : bool) (g s : Q -> cplx) (stL stR : symmtype) (VL VR : reader)
    (spin : Z) (f : Q * Q * Q) (vpp : Q) : option cplx :=
  let '(w, v, vp) := f in
  Pi <- value_Matsubara c ch diff g s w vpp ;;
  Some (Mbu_Model.sum_over_internal_scalar ch spin (fun sp => left_part k stL ch VL sp (w, v, vpp))
    (fun sp => right_part k stR ch VR sp (w, vpp, vp)) Pi).
(** integrator/integrator.hpp:476-491 between the limits of bubble_function.hpp:423-428; [pos] is POSINTRANGE *)
Definition matsubarasum (f : Q -> cplx) (Nmin Nmax : Z) : cplx :=
  fold_left (fun result i => (result + f (inject_Z ((Nmin + Z.of_nat i) * 2 + 1)))%C) (seq 0 (Z.to_nat (Nmax - Nmin + 1))) C0.
Definition frequency_sum (pos : Z) (w : Q) (f : Q -> cplx) : cplx :=
  let n := Qfloor w in matsubarasum f (Mbe_Model.sum_min pos n) (Mbe_Model.sum_max pos n).
(** bubble_function.hpp:474-492 *)
Definition bubble_entry (c : cfg) (pos : Z) (tails : Q -> (Q -> cplx) -> cplx) (pi T : Q) (k : kcl) (ch : chan) (diff : bool) (g s : Q -> cplx)
    (stL stR : symmtype) (VL VR : reader) (spin : Z) (f : Q * Q * Q) : cplx :=
  let '(w, _, _) := f in
  let F := fun vpp => or0 (integrand c k ch diff g s stL stR VL VR spin f vpp) in
  (Mbu_Model.bubble_value_prefactor pi ch * Cofq (2 * pi) * Cofq T * frequency_sum pos w F +
   Mbu_Model.bubble_value_prefactor pi ch * Cofq (2 * pi) * Cofq T * tails w F)%C.
