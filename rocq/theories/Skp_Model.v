(** The sum over internal Keldysh indices outside of the frequency integral (SWITCH_SUM_N_INTEGRAL 0, Keldysh basis,
    DEBUG_SYMMETRIES 0: spin component 0): bubble/bubble_function.hpp:378-389, 425-427, 495-497 with bubble/integrand.hpp:296-364 and the
    components that are left out, 377-408.
    The integrator is a functional [J] (taken as given); the vertices are functions of the integration frequency, the spin component and
    the Keldysh index. *)
From Coq Require Import QArith.
From Verif Require Import Prelude Cplx Keld_Model.
Open Scope Z_scope.

(** integrand.hpp:377-408; i0 external, i2 internal Keldysh index *)
Definition case_always_has_to_be_zero (max_diag_class : Z) (diff : bool) (ch : chan) (i0 i2 : Z) : bool :=
  if max_diag_class <=? 1 then
    if negb diff then
      match ch with
      | Ca => (i0 =? 1) && (negb (i2 =? 11) && negb (i2 =? 13)) ||
              (i0 =? 3) && (negb (i2 =? 6) && negb (i2 =? 7) && negb (i2 =? 9) && negb (i2 =? 11) && negb (i2 =? 13) && negb (i2 =? 14) && negb (i2 =? 15))
      | Cp => (i0 =? 1) && (negb (i2 =? 7) && negb (i2 =? 11)) ||
              (i0 =? 5) && (negb (i2 =? 3) && negb (i2 =? 7) && negb (i2 =? 11) && negb (i2 =? 12) && negb (i2 =? 13) && negb (i2 =? 14) && negb (i2 =? 15))
      | Ct => (i0 =? 1) && (negb (i2 =? 11) && negb (i2 =? 13)) ||
              (i0 =? 3) && (negb (i2 =? 6) && negb (i2 =? 7) && negb (i2 =? 9) && negb (i2 =? 11) && negb (i2 =? 13) && negb (i2 =? 14) && negb (i2 =? 15))
      end
    else false
  else false.

(** integrand.hpp:296-364 operator(); a failing read is None *)
Definition integrand_at (max_diag_class : Z) (ch : chan) (diff : bool) (g s : prop) (VL VR : Q -> Z -> Z -> cplx) (w : Q) (i0 i2 i_spin : Z) (vpp : Q)
  : option cplx :=
  if case_always_has_to_be_zero max_diag_class diff ch i0 i2 then Some C0
  else integrand_term ch 0 i_spin i0 i2 (VL vpp) (VR vpp) (bubble_value_ch diff g s i2 w vpp ch).
Definition oval (z : option cplx) : cplx := match z with Some x => x | None => C0 end.
(** bubble_function.hpp:380-387, 427 (without the prefactor, C93) *)
Definition outer_sum (J : (Q -> cplx) -> cplx) (max_diag_class : Z) (ch : chan) (diff : bool) (g s : prop) (VL VR : Q -> Z -> Z -> cplx) (w : Q) (i0 : Z) : cplx :=
  fold_left (fun acc p => (acc + J (fun vpp => oval (integrand_at max_diag_class ch diff g s VL VR w i0 (fst p) (snd p) vpp)))%C)
    (list_prod glb_non_zero_Keldysh_bubble (n_spin_sum ch 0)) C0.
