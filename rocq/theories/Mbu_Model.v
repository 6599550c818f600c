(** Model of one entry of a bubble of two vertices in the Matsubara formalism at zero temperature: bubble/bubble.hpp:137-161, 195-220,
    bubble/integrand.hpp:358-367, 496-545, 854-998 (without SBE decomposition) and bubble/bubble_function.hpp:178-190, 363-414, 898-905.
    The vertices are read as in [Bub_Model]; there is only the Keldysh index 0. The integrator is a functional [J] on the integrand
    (taken as given), [pi] is M_PI. With particle-hole symmetry a propagator [g] is what the code keeps, the imaginary part.
    DEBUG_SYMMETRIES 1 (both spin components are computed).
    Simplified: one internal index; the four calls of the integrator differ only in the points at which it divides the interval. *)
From Coq Require Import QArith.
From Verif Require Import Prelude Cplx Keld_Model Sym_Model Tab_Model Dec_Model Bub_Model.
Open Scope Z_scope.

(** bubble.hpp:137-161 value_Matsubara, 195-220 the frequencies of the two propagators *)
Definition value_Matsubara (c : cfg) (ch : chan) (diff : bool) (g s : Q -> cplx) (w vpp : Q) : cplx :=
  let v1 := convert_1 ch vpp w in
  let v2 := convert_2 ch vpp w in
  let result := if diff then (g v1 * s v2 + s v1 * g v2)%C else (g v1 * g v2)%C in
  if phs c then Cscale (-1) result else result.
(** integrand.hpp:854-998 sum_over_internal_scalar; component 2 of the expanded vertices is the sum of the components 0 and 1 *)
Definition sum_over_internal_scalar (ch : chan) (spin : Z) (VL VR : Z -> cplx) (Pi : cplx) : cplx :=
  let values_vertex_l := VL spin in
  let values_vertex_r := VR spin in
  match ch, spin with
  | Ct, 0 | Ca, 1 =>
      let values_vertex_l_upup := (VL 0 + VL 1)%C in
      let values_vertex_r_upup := (VR 0 + VR 1)%C in
      (values_vertex_l_upup * Pi * values_vertex_r + values_vertex_l * Pi * values_vertex_r_upup)%C
  | Cp, 1 =>
      let values_vertex_r_other := VR (1 - spin) in
      (values_vertex_l * Pi * values_vertex_r_other)%C
  | _, _ => (values_vertex_l * Pi * values_vertex_r)%C
  end.
(** 854-859: the left vertex at (w, v, vpp), the right vertex at (w, vpp, vp) *)
Definition integrand (c : cfg) (k : kcl) (ch : chan) (diff : bool) (g s : Q -> cplx) (stL stR : symmtype) (VL VR : reader)
    (spin : Z) (f : Q * Q * Q) (vpp : Q) : cplx :=
  let '(w, v, vp) := f in
  sum_over_internal_scalar ch spin (fun sp => left_part k stL ch VL sp 0 (w, v, vpp))
    (fun sp => right_part k stR ch VR sp 0 (w, vpp, vp)) (value_Matsubara c ch diff g s w vpp).
(** bubble_function.hpp:188, 902-905 *)
Definition bubble_value_prefactor (pi : Q) (ch : chan) : cplx :=
  Cscale (match ch with Ct => -1 | _ => 1 end)%Q (C1 / Cofq (2 * pi))%C.
(** 395-414 *)
Definition bubble_entry (c : cfg) (J : (Q -> cplx) -> cplx) (pi : Q) (k : kcl) (ch : chan) (diff : bool) (g s : Q -> cplx)
    (stL stR : symmtype) (VL VR : reader) (spin : Z) (f : Q * Q * Q) : cplx :=
  (bubble_value_prefactor pi ch * J (integrand c k ch diff g s stL stR VL VR spin f))%C.
