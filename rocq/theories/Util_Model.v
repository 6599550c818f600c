(** Model of utilities/math_utils.{hpp,c++}: rounding to Matsubara frequencies, change between natural and
    bosonic frequencies, binary search; bubble/bubble.hpp: frequencies of the two bubble propagators.
    [None] is a failed assertion. Doubles are rationals (no rounding errors), [int]s are integers without
    overflow, the cast [(int)] truncates towards zero, [/] and [%] on ints are [Z.quot] and [Z.rem]. *)
From Coq Require Import QArith Qround.
From Verif Require Import Prelude Keld_Model Vec_Model.
Open Scope Z_scope.

(** math_utils.c++:25-35 *)
Definition integer_division_ceil (a b : Z) : option Z :=
  if 0 <? b then
    Some (if 0 <=? a then Z.quot (a + b - 1) b else - Z.quot (- a) b)
  else None.
(** math_utils.c++:37-49 *)
Definition integer_division_floor (a b : Z) : option Z :=
  if 0 <? b then
    if 0 <=? a then
      let result := Z.quot a b in if result <=? a then Some result else None
    else
      let result := - Z.quot (- a + b - 1) b in if result <=? 0 then Some result else None
  else None.

(** math_utils.c++:64-70, 71-77 [floor2bfreq(int)], [ceil2bfreq(int)] *)
Definition floor2bfreq_int (w : Z) : option Z :=
  d <- integer_division_floor w 2 ;;
  let result := d * 2 in
  if (result <=? w) && (w - 2 <=? result) then Some result else None.
Definition ceil2bfreq_int (w : Z) : option Z :=
  d <- integer_division_ceil w 2 ;;
  let result := d * 2 in
  if (w <=? result) && (result <=? w + 2) then Some result else None.

(** the cast [(int) x] *)
Definition to_int (x : Q) : Z := if Qle_bool 0 x then Qfloor x else Qceiling x.
(** math_utils.hpp:23-26 *)
Definition sign (x : Q) : Q :=
  inject_Z ((if negb (Qle_bool x 0) then 1 else 0) - (if negb (Qle_bool 0 x) then 1 else 0)).

Definition tol8 : Q := 1 # 100000000.
Definition tol10 : Q := 1 # 10000000000.

(** math_utils.c++:79-86, 87-94 [floor2bfreq(double)], [ceil2bfreq(double)] *)
Definition floor2bfreq (w : Q) : option Q :=
  let result := (inject_Z (Qfloor (w / 2 + tol8)) * 2)%Q in
  if Qle_bool result w && Qle_bool (w - 2) result then Some result else None.
Definition ceil2bfreq (w : Q) : option Q :=
  let result := (inject_Z (Qceiling (w / 2 - tol8)) * 2)%Q in
  if Qle_bool w result && Qle_bool result (w + 2) then Some result else None.

(** math_utils.c++:96-100, 101-105 *)
Definition round2bfreq (w : Q) : Q :=
  let w_int := to_int (w + (1 # 10) * sign w) in
  (2 * inject_Z (Z.quot w_int 2))%Q.
Definition round2ffreq (w : Q) : Q :=
  let w_int := to_int (w + (1 # 10) * sign w) in
  (2 * inject_Z (Z.quot (w_int - 1) 2) + 1)%Q.

(** math_utils.c++:51-56, 58-62 *)
Definition round2Infty (x : Q) : Q :=
  if Qle_bool x 0 then inject_Z (Qfloor (x + tol10)) else inject_Z (Qceiling (x - tol10)).
Definition myround (x : Q) : Q :=
  if Qle_bool x (-(1 # 2)) then inject_Z (Qfloor (x + tol10)) else inject_Z (Qceiling (x - tol10)).

(** math_utils.hpp:40-48 [sign_index<double>] *)
Definition sign_index (freq : Q) : Z := if negb (Qle_bool freq tol10) then 1 else 0.

(** math_utils.c++:117-126, 107-115, the finite-temperature Matsubara branch *)
Definition Qabs' (x : Q) : Q := if Qle_bool 0 x then x else (- x)%Q.
Definition signFlipCorrection_MF_int (w : Q) : option Z :=
  let correction := Z.rem (- to_int (Qabs' (w / 2))) 2 in
  if (correction =? 0) || (correction =? -1) then Some correction else None.
Definition signFlipCorrection_MF (w : Q) : option Q :=
  c <- signFlipCorrection_MF_int w ;; Some (inject_Z c * 2)%Q.

(** math_utils.hpp:834-843, math_utils.c++:146-163 *)
Definition switch2bosonicFreqs (ch : chan) (f : Q * Q * Q) : Q * Q * Q :=
  let '(w_in, v1_in, v2_in) := f in
  match ch with
  | Ca => (w_in, v1_in + v2_in, v1_in - v2_in)
  | Cp => (- v1_in - v2_in, w_in, v1_in - v2_in)
  | Ct => (v1_in - v2_in, v1_in + v2_in, w_in)
  end%Q.
(** math_utils.hpp:853-862, math_utils.c++:165-182 *)
Definition switch2naturalFreqs (ch : chan) (f : Q * Q * Q) : Q * Q * Q :=
  let '(w_a, w_p, w_t) := f in
  match ch with
  | Ca => (w_a, (1 # 2) * (w_p + w_t), (1 # 2) * (w_p - w_t))
  | Cp => (w_p, (1 # 2) * (- w_a + w_t), (1 # 2) * (- w_a - w_t))
  | Ct => (w_t, (1 # 2) * (w_a + w_p), (1 # 2) * (- w_a + w_p))
  end%Q.

(** math_utils.hpp:871-892 [locate]; the loop with fuel. The result [None] of the inner option is a
    read outside the array, the outer [None] is exhausted fuel. [x] may be NaN; [x >= xx[jm]] is the
    IEEE comparison. *)
Definition fge (x : fl) (y : Q) : bool :=
  match x with NaN => false | Fin q => Qle_bool y q end.
Fixpoint locate_loop (fuel : nat) (xx : list Q) (x : fl) (jl ju : Z) : option (option Z) :=
  if ju - jl >? 1 then
    match fuel with
    | O => None
    | S k =>
        let jm := Z.quot (ju + jl) 2 in
        if jm <? 0 then Some None else
        match nth_error xx (Z.to_nat jm) with
        | None => Some None
        | Some y => if fge x y then locate_loop k xx x jm ju else locate_loop k xx x jl jm
        end
    end
  else Some (Some jl).
Definition locate (fuel : nat) (xx : list Q) (x : fl) (jl_start ju_start : Z) : option (option Z) :=
  locate_loop fuel xx x jl_start ju_start.

(** bubble/bubble.hpp:174-192: the propagator frequencies used by [value(iK, w, vpp, i_in, channel)];
    [mf] is the finite-temperature Matsubara case *)
Definition bubble_freqs_scalar (mf : bool) (ch : chan) (w vpp : Q) : option (Q * Q) :=
  f <- (if mf then floor2bfreq (w / 2) else Some (w / 2)%Q) ;;
  c <- (if mf then ceil2bfreq (w / 2) else Some (w / 2)%Q) ;;
  Some match ch with
       | Ca => (vpp - f, vpp + c)
       | Cp => (c + vpp, f - vpp)
       | Ct => (vpp - f, vpp + c)
       end%Q.
(** bubble/bubble.hpp:198-208, 209-220 *)
Definition convert_to_fermionic_frequencies_1 (mf : bool) (ch : chan) (vpp w : Q) : option Q :=
  if mf then
    match ch with
    | Cp => c <- ceil2bfreq (w / 2) ;; Some (vpp + c)%Q
    | _ => f <- floor2bfreq (w / 2) ;; Some (vpp - f)%Q
    end
  else Some (match ch with Cp => vpp + w * (1 # 2) | _ => vpp - w * (1 # 2) end)%Q.
Definition convert_to_fermionic_frequencies_2 (mf : bool) (ch : chan) (vpp w : Q) : option Q :=
  if mf then
    match ch with
    | Cp => f <- floor2bfreq (w / 2) ;; Some (f - vpp)%Q
    | _ => c <- ceil2bfreq (w / 2) ;; Some (vpp + c)%Q
    end
  else Some (match ch with Cp => w * (1 # 2) - vpp | _ => vpp + w * (1 # 2) end)%Q.
