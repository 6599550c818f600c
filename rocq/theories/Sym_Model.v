(** Model of symmetries/symmetry_transformations.{hpp,c++} and of rvert::transfToR
    (correlation_functions/four_point/r_vertex.hpp:1598-1749).
    Compile-time switches are collected in [cfg]; MAX_DIAG_CLASS is 3. Frequencies are rationals.
    [None] is a failed assertion. *)
From Coq Require Import QArith.
From Verif Require Import Prelude Keld_Model Util_Model.
Open Scope Z_scope.

Record cfg := mkCfg { keldysh : bool; zero_t : bool; phs : bool; contour : bool; nBOS3 : Z }.
(** finite-temperature Matsubara: [!KELDYSH && !ZERO_T] *)
Definition mf (c : cfg) : bool := negb (keldysh c) && negb (zero_t c).

(** data_structures.hpp:560-613 IndicesSymmetryTransformations (the members that matter here) *)
Record indices := mkI {
  iK : Z; spin : Z; w : Q; v1 : Q; v2 : Q; iw_r : Z;
  prefactor : Q; conjugate : bool; asymmetry_transform : bool; channel_rvert : chan }.

(** symmetry_transformations.c++:3-13 *)
Definition switch_channel (ch : chan) : chan := match ch with Ca => Ct | Ct => Ca | Cp => Cp end.

(** [std::swap] on the four Keldysh indices, hpp:20-22, 64-66, 98-101 *)
Definition swap23 (k : Z) : option Z :=
  match iK_to_alphas k with [a; b; c; d] => alphas_to_iK [a; b; d; c] | _ => None end.
Definition swap01 (k : Z) : option Z :=
  match iK_to_alphas k with [a; b; c; d] => alphas_to_iK [b; a; c; d] | _ => None end.
Definition swapC (k : Z) : option Z :=
  match iK_to_alphas k with [a; b; c; d] => alphas_to_iK [c; d; a; b] | _ => None end.

(** the rounding correction, added only at finite-temperature Matsubara frequencies *)
Definition corr (c : cfg) (x : Q) : option Q :=
  if mf c then signFlipCorrection_MF x else Some 0%Q.

(** hpp:18-59; [sbe] is the template parameter is_SBE_lambda *)
Definition T1 (c : cfg) (sbe : bool) (x : indices) : option indices :=
  k <- (if keldysh c then swap23 (iK x) else Some (iK x)) ;;
  let pf := (if sbe then prefactor x else prefactor x * -1)%Q in
  match channel_rvert x with
  | Cp =>
      r <- corr c (w x) ;;
      Some (mkI k (1 - spin x) (w x) (v1 x) (v2 x * -1 + r) (iw_r x)
                pf (conjugate x) (asymmetry_transform x) (switch_channel (channel_rvert x)))
  | _ =>
      Some (mkI k (1 - spin x) (w x * -1) (v2 x) (v1 x) (iw_r x)
                pf (conjugate x) (negb (asymmetry_transform x)) (switch_channel (channel_rvert x)))
  end%Q.
(** hpp:61-91 *)
Definition T2 (c : cfg) (sbe : bool) (x : indices) : option indices :=
  k <- (if keldysh c then swap01 (iK x) else Some (iK x)) ;;
  let pf := (if sbe then prefactor x else prefactor x * -1)%Q in
  match channel_rvert x with
  | Cp =>
      r <- corr c (w x) ;;
      Some (mkI k (1 - spin x) (w x) (v1 x * -1 + r) (v2 x) (iw_r x)
                pf (conjugate x) (asymmetry_transform x) (switch_channel (channel_rvert x)))
  | _ =>
      Some (mkI k (1 - spin x) (w x) (v1 x) (v2 x) (iw_r x)
                pf (conjugate x) (asymmetry_transform x) (switch_channel (channel_rvert x)))
  end%Q.
(** hpp:92-95 *)
Definition T3 (c : cfg) (sbe : bool) (x : indices) : option indices :=
  y <- T1 c sbe x ;; T2 c sbe y.
(** the sign of hpp:124-133 and 151-163 *)
Definition conj_sign (c : cfg) (sbe : bool) (k : Z) (pf : Q) : Q :=
  (if contour c then (if sbe then pf else pf * -1)
   else if sbe then (if isInList k odd_Keldysh then pf * -1 else pf)
        else (if isInList k odd_Keldysh then pf else pf * -1))%Q.
(** hpp:96-149 *)
Definition TC (c : cfg) (sbe : bool) (x : indices) : option indices :=
  k <- (if keldysh c then swapC (iK x) else Some (iK x)) ;;
  let '(w', v1', v2', as') :=
    match channel_rvert x with
    | Ct => (w x * -1, v1 x, v2 x, asymmetry_transform x)
    | _ => (w x * 1, v2 x, v1 x, negb (asymmetry_transform x))
    end%Q in
  if keldysh c then
    Some (mkI k (spin x) w' v1' v2' (iw_r x) (conj_sign c sbe k (prefactor x)) (negb (conjugate x)) as'
              (channel_rvert x))
  else
    r <- corr c (w' * -1)%Q ;;
    Some (mkI k (spin x) (w' * -1) (v1' * -1 + r) (v2' * -1 + r) (nBOS3 c - 1 - iw_r x)
              (prefactor x) (negb (conjugate x)) as' (channel_rvert x))%Q.
(** hpp:150-172 *)
Definition Tph (c : cfg) (sbe : bool) (x : indices) : option indices :=
  if keldysh c && phs c then
    Some (mkI (iK x) (spin x) (w x * -1) (v1 x * -1) (v2 x * -1) (iw_r x)
              (conj_sign c sbe (iK x) (prefactor x)) (negb (conjugate x)) (asymmetry_transform x)
              (channel_rvert x))%Q
  else Some x.
(** hpp:173-188 *)
Definition TR (c : cfg) (sbe : bool) (x : indices) : option indices :=
  if keldysh c then Some x
  else
    r <- corr c (w x * -1)%Q ;;
    Some (mkI (iK x) (spin x) (w x * -1) (v1 x * -1 + r) (v2 x * -1 + r) (iw_r x)
              (prefactor x) (negb (conjugate x)) (asymmetry_transform x) (channel_rvert x))%Q.

(** hpp:189-279; the cases with 6 exist only with KELDYSH_FORMALISM and PARTICLE_HOLE_SYMM; the block
    [if (!KELDYSH)] around the cases with 7 has no effect on the jump to a case label *)
Definition Ti (c : cfg) (sbe : bool) (x : indices) (i : Z) : option indices :=
  if i =? 0 then Some x
  else if i =? 1 then T1 c sbe x
  else if i =? 2 then T2 c sbe x
  else if i =? 3 then T3 c sbe x
  else if i =? 4 then TC c sbe x
  else if i =? 14 then (y <- T1 c sbe x ;; TC c sbe y)
  else if i =? 24 then (y <- T2 c sbe x ;; TC c sbe y)
  else if i =? 41 then (y <- TC c sbe x ;; T1 c sbe y)
  else if i =? 43 then (y <- TC c sbe x ;; T3 c sbe y)
  else if i =? 34 then (y <- TC c sbe x ;; T3 c sbe y)
  else if (i =? 6) && (keldysh c && phs c) then Tph c sbe x
  else if (i =? 16) && (keldysh c && phs c) then (y <- T1 c sbe x ;; Tph c sbe y)
  else if (i =? 26) && (keldysh c && phs c) then (y <- T2 c sbe x ;; Tph c sbe y)
  else if (i =? 36) && (keldysh c && phs c) then (y <- T3 c sbe x ;; Tph c sbe y)
  else if (i =? 46) && (keldysh c && phs c) then (y <- TC c sbe x ;; Tph c sbe y)
  else if (i =? 146) && (keldysh c && phs c) then (y <- T1 c sbe x ;; z <- TC c sbe y ;; Tph c sbe z)
  else if (i =? 246) && (keldysh c && phs c) then (y <- T2 c sbe x ;; z <- TC c sbe y ;; Tph c sbe z)
  else if (i =? 346) && (keldysh c && phs c) then (y <- Tph c sbe x ;; z <- TC c sbe y ;; T3 c sbe z)
  else if i =? 7 then TR c sbe x
  else if i =? 37 then (y <- TR c sbe x ;; T3 c sbe y)
  else if i =? 47 then (y <- TC c sbe x ;; TR c sbe y)
  else if i =? 347 then (y <- TR c sbe x ;; z <- TC c sbe y ;; T3 c sbe z)
  else None.

(** ** rvert::transfToR, r_vertex.hpp:1598-1749.
    [ch_bubble] is one of a, p, t or f (leg frequencies v_1', v_2', v_1). [m] is [!KELDYSH and !ZERO_T]. *)
Inductive bub := Bch (ch : chan) | Bf.
Definition transfToR (m : bool) (channel : chan) (ch_bubble : bub) (f : Q * Q * Q) : option (Q * Q * Q) :=
  let '(iw, iv1, iv2) := f in
  let h := (1 # 2)%Q in
  if m then
    fi <- floor2bfreq (iw / 2) ;;
    match channel, ch_bubble with
    | Ca, Bch Ca => Some f
    | Ca, Bch Cp =>
        let w := (- iv1 - iv2 - iw + 2 * fi)%Q in
        fw <- floor2bfreq (w / 2) ;; Some (w, iw + iv1 + fw - fi, iw + iv2 + fw - fi)%Q
    | Ca, Bch Ct =>
        let w := (iv1 - iv2)%Q in
        fw <- floor2bfreq (w / 2) ;; Some (w, iw + iv2 + fw - fi, iv1 + fw - w - fi)%Q
    | Ca, Bf =>
        let w := (iv1 - iv2)%Q in
        fw <- floor2bfreq (w / 2) ;; Some (w, iw - fw, iv2 - fw)%Q
    | Cp, Bch Ca =>
        let w := (iv1 + iv2 + iw - 2 * fi)%Q in
        fw <- floor2bfreq (w / 2) ;; Some (w, - iw - iv2 + fw + fi, - iw - iv1 + fw + fi)%Q
    | Cp, Bch Cp => Some f
    | Cp, Bch Ct =>
        let w := (iv1 + iv2 + iw - 2 * fi)%Q in
        fw <- floor2bfreq (w / 2) ;; Some (w, - iv1 + fw + fi, - iw - iv1 + fw + fi)%Q
    | Cp, Bf =>
        let w := (iw + iv1)%Q in
        fw <- floor2bfreq (w / 2) ;; Some (w, - iv1 + fw, iv2 - w + fw)%Q
    | Ct, Bch Ca =>
        let w := (iv1 - iv2)%Q in
        fw <- floor2bfreq (w / 2) ;; Some (w, iw + iv2 + fw - fi, iv2 + fw - fi)%Q
    | Ct, Bch Cp =>
        let w := (iv1 - iv2)%Q in
        fw <- floor2bfreq (w / 2) ;; Some (w, - iv1 + fw + fi, iv2 + iw + fw - fi)%Q
    | Ct, Bch Ct => Some f
    | Ct, Bf =>
        let w := (iw - iv2)%Q in
        fw <- floor2bfreq (w / 2) ;; Some (w, iv1 + fw, iv2 + fw)%Q
    end
  else
    Some match channel, ch_bubble with
    | Ca, Bch Ca => f
    | Ca, Bch Cp => (- iv1 - iv2, h * (iw + iv1 - iv2), h * (iw - iv1 + iv2))
    | Ca, Bch Ct => (iv1 - iv2, h * (iw + iv1 + iv2), h * (- iw + iv1 + iv2))
    | Ca, Bf => (iv1 - iv2, h * (2 * iw + iv1 - iv2), h * (iv1 + iv2))
    | Cp, Bch Ca => (iv1 + iv2, h * (- iw + iv1 - iv2), h * (- iw - iv1 + iv2))
    | Cp, Bch Cp => f
    | Cp, Bch Ct => (iv1 + iv2, h * (iw - iv1 + iv2), h * (- iw - iv1 + iv2))
    | Cp, Bf => (iw + iv1, h * (iw - iv1), h * (2 * iv2 - iw - iv1))
    | Ct, Bch Ca => (iv1 - iv2, h * (iw + iv1 + iv2), h * (- iw + iv1 + iv2))
    | Ct, Bch Cp => (iv1 - iv2, h * (iw - iv1 - iv2), h * (iw + iv1 + iv2))
    | Ct, Bch Ct => f
    | Ct, Bf => (iw - iv2, h * (2 * iv1 + iw - iv2), h * (iw + iv2))
    end%Q.
