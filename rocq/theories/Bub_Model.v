(** Model of one entry of a bubble of two vertices in the Keldysh formalism: bubble/bubble_function.hpp:178-190, 361-521, 898-905
    with bubble/integrand.hpp:496-545, 1160-1215 and the parts of the vertices that are inserted on the left and on the right
    (vertex.hpp:905-930, 1325-1570).
    The integrator is a functional [J] on the integrand (taken as given); [pi] is M_PI.
    A part that does not exist is read as 0; with MAX_DIAG_CLASS 3 and without SBE decomposition all parts exist (C77).
    Simplified: one internal index; the 16 entries of the integrand are integrated one by one instead of as a matrix. *)
From Coq Require Import QArith.
From Verif Require Import Prelude Cplx Keld_Model Sym_Model Tab_Model Dec_Model.
Open Scope Z_scope.

(** what reading a vertex gives for a spin component and a Keldysh index *)
Definition reader := Z -> Z -> fvert.
Definition or0 (z : option cplx) : cplx := match z with Some x => x | None => C0 end.
(** bubble/integrand.hpp:496-545: the left vertex of class K1 and K2' and the right vertex of class K1 and K2 do not depend
    on the external fermionic frequency on their side *)
Definition left_dressed (k : kcl) : bool := match k with k2 | k3 => true | _ => false end.
Definition right_dressed (k : kcl) : bool := match k with k2b | k3 => true | _ => false end.
Definition left_part (k : kcl) (st : symmtype) (ch : chan) (V : reader) (s iK : Z) (f : Q * Q * Q) : cplx :=
  or0 (if left_dressed k then g_left_diff false false 3 st ch (V s iK) f else g_left_same false 3 st ch (V s iK) f).
Definition right_part (k : kcl) (st : symmtype) (ch : chan) (V : reader) (s iK : Z) (f : Q * Q * Q) : cplx :=
  or0 (if right_dressed k then g_right_diff false false 3 st ch (V s iK) f else g_right_same false 3 st ch (V s iK) f).

(** bubble/integrand.hpp:1160-1215 at the integration frequency [vpp]: the left vertex at (w, v, vpp), the right vertex at (w, vpp, vp) *)
Definition integrand (k : kcl) (ch : chan) (diff : bool) (g s : prop) (stL stR : symmtype) (VL VR : reader)
    (spin iK : Z) (f : Q * Q * Q) (vpp : Q) : option cplx :=
  let '(w, v, vp) := f in
  l <- integrand_vectorized ch spin (fun sp i => left_part k stL ch VL sp i (w, v, vpp))
         (fun sp i => right_part k stR ch VR sp i (w, vpp, vp)) (value_vectorized ch diff g s w vpp) ;;
  nth_error l (Z.to_nat iK).
(** bubble_function.hpp:188, 902-904 *)
Definition bubble_value_prefactor (pi : Q) (ch : chan) : cplx :=
  Cscale (match ch with Ct => -1 | _ => 1 end)%Q (C1 / (Cofq (2 * pi) * Ci))%C.
(** bubble_function.hpp:427, 512-521 *)
Definition bubble_entry (J : (Q -> cplx) -> cplx) (pi : Q) (k : kcl) (ch : chan) (diff : bool) (g s : prop)
    (stL stR : symmtype) (VL VR : reader) (spin iK : Z) (f : Q * Q * Q) : cplx :=
  (bubble_value_prefactor pi ch * J (fun vpp => or0 (integrand k ch diff g s stL stR VL VR spin iK f vpp)))%C.
