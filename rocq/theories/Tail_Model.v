(** Analytic tails of the frequency integrals: asymptotic_corrections/bubble_corrections.hpp, loop_corrections.hpp, correction_functions.hpp and their use in
    bubble/bubble_function.hpp:422-490. Exact real numbers; complex numbers are those of [Gf_Model]. Quotients and logarithms are total functions here:
    where the code would divide by zero or take the logarithm of a non-positive number the model has no meaning, the theorems exclude these arguments. *)
From Coq Require Import Reals Ascii.
From Verif Require Import Prelude Gf_Model.
Open Scope R_scope.

(** std::log and std::arg of a complex number, principal branch *)
Definition carg (z : comp) : R :=
  if Rlt_dec 0 (fst z) then atan (snd z / fst z)
  else if Rlt_dec (fst z) 0 then (if Rle_dec 0 (snd z) then atan (snd z / fst z) + PI else atan (snd z / fst z) - PI)
  else if Rlt_dec 0 (snd z) then PI / 2 else if Rlt_dec (snd z) 0 then - (PI / 2) else 0.
Definition clog (z : comp) : comp := (ln (norm z) / 2, carg z).
Definition cdiv (x y : comp) : comp := (x * cinv y)%C.
Definition cpow2 (x : comp) : comp := (x * x)%C.
Definition cpow3 (x : comp) : comp := (x * x * x)%C.

(** ** bubble_corrections.hpp *)
(** 24-40 correctionFunctionBubbleAT_REG2_Keldysh *)
Definition AT_REG2_Keldysh (w vmin vmax : R) (eps : comp) (Delta eta1 eta2 : R) (diff : bool) : comp :=
  if diff then rc 0
  else if Req_EM_T w 0 then
    if Req_EM_T eta1 eta2 then
      (cdiv (rc 1) (rc vmax - eps + rc (eta1 * Delta) * ci) + cdiv (rc 1) (rc (Rabs vmin) + eps - rc (eta1 * Delta) * ci))%C
    else
      (cdiv (rc 1) (rc (- w) + rc ((eta1 - eta2) * Delta) * ci)
       * clog (cdiv ((rc (vmax - w / 2) - eps + rc (eta1 * Delta) * ci) * (rc (Rabs vmin - w / 2) + eps - rc (eta2 * Delta) * ci))
                    ((rc (vmax + w / 2) - eps + rc (eta2 * Delta) * ci) * (rc (Rabs vmin + w / 2) + eps - rc (eta1 * Delta) * ci))))%C
  else
    (cdiv (rc 1) (rc (- w) + rc ((eta1 - eta2) * Delta) * ci)
     * clog (cdiv ((rc (vmax - w / 2) - eps + rc (eta1 * Delta) * ci) * (rc (Rabs vmin - w / 2) + eps - rc (eta2 * Delta) * ci))
                  ((rc (vmax + w / 2) - eps + rc (eta2 * Delta) * ci) * (rc (Rabs vmin + w / 2) + eps - rc (eta1 * Delta) * ci))))%C.
(** 46-70 correctionFunctionBubbleAT_REG2_Matsubara_PHS *)
Definition AT_REG2_PHS (w vmin vmax Delta : R) (diff : bool) : R :=
  if diff then 1 / 2 * (1 / ((- vmin + Delta) ^ 2 - (w / 2) ^ 2) + 1 / ((vmax + Delta) ^ 2 - (w / 2) ^ 2))
  else if Req_EM_T w 0 then - 1 / (vmax + Delta) + 1 / (vmin - Delta)
  else 1 / w * ln (((- vmin - w / 2 + Delta) * (vmax - w / 2 + Delta)) / ((- vmin + w / 2 + Delta) * (vmax + w / 2 + Delta))).
(** 72-96 correctionFunctionBubbleAT_REG2_Matsubara_NoPHS *)
Definition AT_REG2_NoPHS (w vmin vmax : R) (eps : comp) (Delta : R) (diff : bool) : comp :=
  if diff then
    (rc (1 / 2) * (cdiv (rc 1) (cpow2 (rc (- vmin) - ci * eps + rc Delta) - rc ((w / 2) ^ 2))
                   + cdiv (rc 1) (cpow2 (rc vmax + ci * eps + rc Delta) - rc ((w / 2) ^ 2))))%C
  else if Req_EM_T w 0 then
    (cdiv (rc (- 1)) (rc vmax + ci * eps + rc Delta) + cdiv (rc 1) (rc vmin + ci * eps - rc Delta))%C
  else
    (rc (1 / w) * clog (cdiv ((rc (- vmin - w / 2) - ci * eps + rc Delta) * (rc (vmax - w / 2) + ci * eps + rc Delta))
                             ((rc (- vmin + w / 2) - ci * eps + rc Delta) * (rc (vmax + w / 2) + ci * eps + rc Delta))))%C.
(** 121-126 *)
Definition P_REG2_PHS (w vmin vmax Delta : R) (diff : bool) : R := - AT_REG2_PHS w vmin vmax Delta diff.
(** 154-163 correctionFunctionBubble_REG4_Matsubara_PHS; the literal 1e-20 *)
Definition tiny : R := / (10 ^ 20).
Definition B_REG4_PHS (w vmin vmax Delta : R) : R :=
  if Rlt_dec (Rabs w) tiny then - 1 / (vmax + Delta) + 1 / (vmin - Delta)
  else - ln ((vmax + w * (1 / 2) + Delta) * (vmin - w * (1 / 2) - Delta) / ((vmax - w * (1 / 2) + Delta) * (vmin + w * (1 / 2) - Delta))) / w.
(** 350-377 *)
Definition AT_REG4_PHS (w vmin vmax Delta Lambda : R) (diff : bool) : R :=
  if diff then 2 * Lambda * B_REG4_PHS w vmin vmax Delta else Lambda * Lambda * B_REG4_PHS w vmin vmax Delta.
Definition P_REG4_PHS (w vmin vmax Delta Lambda : R) (diff : bool) : R :=
  if diff then - 2 * Lambda * B_REG4_PHS w vmin vmax Delta else - Lambda * Lambda * B_REG4_PHS w vmin vmax Delta.

(** 169-286 correctionFunctionBubble_REG3_Matsubara_PHS_nondiff *)
Definition signs : list R := [-1; 1].
Definition sumR (l : list R) : R := fold_right Rplus 0 l.
Definition over {A} (l : list A) (f : A -> R) : R := sumR (map f l).
Definition REG3_addition_w0 (vmax Lambda Delta : R) : R :=
  let lm := clog (rc vmax - ci * rc Lambda)%C in let lp := clog (rc vmax + ci * rc Lambda)%C in
  let dm := (rc Delta - ci * rc Lambda)%C in let dp := (rc Delta + ci * rc Lambda)%C in
  - (1 / 2) * Delta *
  (- 1 * (2 * (2 * Delta ^ 3 / (Delta + vmax) + (3 * Delta * Delta * Lambda * Lambda + Lambda ^ 4 + 2 * Delta ^ 3 * vmax) / (Lambda * Lambda + vmax * vmax))
          / (Delta * Delta + Lambda * Lambda) ^ 2)
   + Delta * snd (cdiv (cdiv lm (cpow2 dp) + cdiv lp (cpow2 (ci * rc Delta + rc Lambda))) (rc Lambda))%C
   + snd (cdiv lm (rc (Delta * Lambda) + ci * rc (Lambda * Lambda)) - cdiv lp (rc (Delta * Lambda) - ci * rc (Lambda * Lambda)))%C
   + fst (cdiv (rc (2 * Delta) * (rc ((6 * Delta ^ 3 - 2 * Delta * Lambda * Lambda) * ln (Delta + vmax)) - cpow3 dm * lm - cpow3 dp * lp))
               (rc ((Delta * Delta + Lambda * Lambda) ^ 3)))%C
   - 2 * fst (cdiv lm (cpow2 dp))).
Definition REG3_addition (w vmax Lambda Delta : R) : R :=
  (over signs (fun s1 => over signs (fun s2 => over signs (fun s3 =>
     4 * Delta * fst (
       copp (cdiv (clog (rc (w + 2 * vmax) + rc 2 * ci * rc (Lambda * s1)))
                  ((rc w + ci * rc (Lambda * (s1 - s2))) * (rc (2 * Delta - w) - rc 2 * ci * rc (Lambda * s1) + rc (w * s3))))
       + cdiv (clog (rc (- w + 2 * vmax) + rc 2 * ci * rc (Lambda * s2)))
              ((rc w + ci * rc (Lambda * (s1 - s2))) * (rc (2 * Delta + w) - rc 2 * ci * rc (Lambda * s2) + rc (w * s3)))
       + cdiv (rc (2 * ln (2 * Delta + 2 * vmax + w * s3)))
              ((rc (2 * Delta - w) - rc 2 * ci * rc (Lambda * s1) + rc (w * s3)) * (rc (2 * Delta + w) - rc 2 * ci * rc (Lambda * s2) + rc (w * s3))))%C)))
   + over signs (fun s1 => over signs (fun s2 =>
     2 * Delta * Delta * fst (
       cdiv (ci * clog (rc (w + 2 * vmax) + rc 2 * ci * rc (Lambda * s1)))
            ((rc Delta - ci * rc (Lambda * s1)) * (rc (Delta - w) - ci * rc (Lambda * s1)) * (copp (ci * rc w) + rc (Lambda * (s1 - s2)))))%C
     + 2 * Delta * Delta * fst (
       copp (cdiv (rc (ln (2 * Delta - w + 2 * vmax))) (rc w * (rc (- Delta + w) + ci * rc (Lambda * s1)) * (rc Delta - ci * rc (Lambda * s2))))
       - cdiv (rc (ln (2 * Delta + w + 2 * vmax))) (rc w * (rc (Delta + w) - ci * rc (Lambda * s2)) * (rc Delta - ci * rc (Lambda * s1)))
       + cdiv (ci * clog (rc (- w + 2 * vmax) + rc 2 * ci * rc (Lambda * s2)))
              ((rc Delta - ci * rc (Lambda * s2)) * (rc (Delta + w) - ci * rc (Lambda * s2)) * (ci * rc w - rc (Lambda * (s1 - s2)))))%C)))
  * (- (1 / 4) * (1 / 2)).
Definition REG3_nondiff (w vmax Lambda Delta : R) : R :=
  if Rlt_dec (Rabs w) (/ (10 ^ 10)) then
    if Rlt_dec (Lambda / vmax) (/ (10 ^ 2)) then
      - (1 / 2) * (vmax / (vmax * vmax + Lambda * Lambda) + 1 / vmax - Lambda * Lambda / (3 * vmax * vmax * vmax))
    else
      - (1 / 2) * (vmax / (vmax * vmax + Lambda * Lambda) + atan (Lambda / vmax) / Lambda) + REG3_addition_w0 vmax Lambda Delta
  else
    - (1 / 4) * (ln (((vmax + w / 2) ^ 2 + Lambda * Lambda) / ((vmax - w / 2) ^ 2 + Lambda * Lambda)) / w
                 + 2 * fst (cdiv (clog (cdiv (rc (vmax + w / 2) + ci * rc Lambda) (rc (vmax - w / 2) - ci * rc Lambda))) (rc w + rc 2 * ci * rc Lambda))%C)
    + REG3_addition w vmax Lambda Delta.
(** 289-320 correctionFunctionBubble_REG3_Matsubara_PHS_diff: the argument Delta is not used *)
Definition REG3_diff (w vmax Lambda Delta : R) : R :=
  if Rlt_dec (Rabs w) (/ (10 ^ 10)) then
    if Rlt_dec (Lambda / vmax) (/ (10 ^ 5)) then
      - (1 / 2) * (- 2 * vmax * Lambda / (vmax * vmax + Lambda * Lambda) ^ 2)
    else
      - (1 / 2) * (- 2 * vmax * Lambda / (vmax * vmax + Lambda * Lambda) ^ 2 - atan (Lambda / vmax) / (Lambda * Lambda)
                   + vmax / (Lambda * (vmax * vmax + Lambda * Lambda)))
  else
    - (1 / 4) * (1 / 2 * vmax * Lambda * (- 4 * Lambda * Lambda + 4 * vmax * vmax - 5 * w * w)
                   / ((Lambda * Lambda + w * w * (1 / 4)) * (Lambda * Lambda + (vmax + w * (1 / 2)) ^ 2) * (Lambda * Lambda + (vmax - w * (1 / 2)) ^ 2))
                 + 2 * fst (cdiv (rc (- 2) * ci * clog (cdiv (rc (vmax + w * (1 / 2)) + ci * rc Lambda) (rc (vmax - w * (1 / 2)) - ci * rc Lambda)))
                                 (cpow2 (rc w + rc 2 * ci * rc Lambda)))%C).
(** 322-347 *)
Definition AT_REG3_PHS (w vmin vmax Delta Lambda : R) (diff : bool) : R :=
  if diff then REG3_diff w vmax Lambda Delta + REG3_diff w (- vmin) Lambda Delta
  else REG3_nondiff w vmax Lambda Delta + REG3_nondiff w (- vmin) Lambda Delta.
Definition P_REG3_PHS (w vmin vmax Delta Lambda : R) (diff : bool) : R := - AT_REG3_PHS w vmin vmax Delta Lambda diff.

(** 98-116 correctionFunctionBubbleP_REG2_Keldysh *)
Definition P_REG2_Keldysh (w vmin vmax : R) (eps : comp) (Delta eta1 eta2 : R) (diff : bool) : comp :=
  if diff then rc 0
  else if (if Req_EM_T (snd eps) 0 then if Req_EM_T w (2 * fst eps) then if Req_EM_T eta1 (- eta2) then true else false else false else false) then
    (cdiv (rc (- 1)) (rc vmax + rc (eta1 * Delta) * ci) - cdiv (rc 1) (rc (Rabs vmin) - rc (eta1 * Delta) * ci))%C
  else
    (cdiv (rc (- 1)) (rc w - rc 2 * eps + rc ((eta1 + eta2) * Delta) * ci)
     * clog (cdiv ((rc (vmax + w / 2) - eps + rc (eta1 * Delta) * ci) * (rc (Rabs vmin + w / 2) - eps + rc (eta2 * Delta) * ci))
                  ((rc (vmax - w / 2) + eps - rc (eta2 * Delta) * ci) * (rc (Rabs vmin - w / 2) + eps - rc (eta1 * Delta) * ci))))%C.
(** 128-147 correctionFunctionBubbleP_REG2_Matsubara_NoPHS *)
Definition P_REG2_NoPHS (w vmin vmax : R) (eps : comp) (Delta : R) (diff : bool) : comp :=
  let h := (rc (w / 2) + ci * eps)%C in
  if diff then
    (rc (1 / 2) * (cdiv (rc 1) (rc ((- vmin + Delta) ^ 2) - cpow2 h) + cdiv (rc 1) (rc ((vmax + Delta) ^ 2) - cpow2 h)))%C
  else if (if Req_EM_T (fst eps) 0 then if Req_EM_T (snd eps) 0 then if Req_EM_T w 0 then true else false else false else false) then
    rc (1 / (vmax + Delta) - 1 / (vmin - Delta))
  else
    (cdiv (rc 1) (rc w + rc 2 * ci * eps)
     * clog (cdiv ((rc (- vmin + Delta) + h) * (rc (vmax + Delta) + h)) ((rc (- vmin + Delta) - h) * (rc (vmax + Delta) - h))))%C.

(** 380-466: the selection. [None]: end of a function with a return type without return statement (the exception objects are only constructed) *)
Definition correction_bubble (keldysh phs : bool) (reg : Z) (p_channel : bool) (w vmin vmax : R) (eps : comp) (Delta Lambda eta1 eta2 : R) (diff : bool) : option comp :=
  if (reg =? 2)%Z then
    Some (if keldysh then (if p_channel then P_REG2_Keldysh else AT_REG2_Keldysh) w vmin vmax eps Delta eta1 eta2 diff
          else if phs then rc ((if p_channel then P_REG2_PHS else AT_REG2_PHS) w vmin vmax Delta diff)
          else (if p_channel then P_REG2_NoPHS else AT_REG2_NoPHS) w vmin vmax eps Delta diff)
  else if (reg =? 3)%Z then
    (if phs then Some (rc ((if p_channel then P_REG3_PHS else AT_REG3_PHS) w vmin vmax Delta Lambda diff)) else None)
  else if (reg =? 4)%Z then
    (if phs then Some (rc ((if p_channel then P_REG4_PHS else AT_REG4_PHS) w vmin vmax Delta Lambda diff)) else None)
  else Some (rc 0).

(** ** loop_corrections.hpp *)
(** 24-50 correctionFunctionSelfEnergy_Keldysh; [single]: type 's' *)
Definition SE_Keldysh (iK : Z) (vmin vmax : R) (eps Delta : R) (single : bool) : comp :=
  if single then
    match iK with
    | 0%Z => (rc (- (1 / 2)) * ci * (cdiv (rc 1) (rc (vmax - eps) + ci * rc Delta) - cdiv (rc 1) (rc (vmin - eps) + ci * rc Delta)))%C
    | 1%Z => (rc (1 / 2) * ci * (cdiv (rc 1) (rc (vmax - eps) - ci * rc Delta) - cdiv (rc 1) (rc (vmin - eps) - ci * rc Delta)))%C
    | 2%Z => (copp ci * rc ((vmax - eps) / ((vmax - eps) * (vmax - eps) + Delta * Delta) + (vmin - eps) / ((vmin - eps) * (vmin - eps) + Delta * Delta)))%C
    | _ => rc 0
    end
  else
    match iK with
    | 0%Z => clog (cdiv (rc (Rabs vmin + eps) - ci * rc Delta) (rc (vmax - eps) + ci * rc Delta))%C
    | 1%Z => clog (cdiv (rc (Rabs vmin + eps) + ci * rc Delta) (rc (vmax - eps) - ci * rc Delta))%C
    | 2%Z => (rc 2 * ci * rc (atan ((vmax - eps) / Delta) - atan ((Rabs vmin + eps) / Delta)))%C
    | _ => rc 0
    end.
(** 54-64 correctionFunctionSelfEnergy_Matsubara_PHS *)
Definition SE_PHS (vmin vmax Delta : R) (single : bool) : R :=
  if single then - 1 / 2 * (- 1 / (vmax + Delta) + 1 / (- vmin + Delta)) else - ln ((Rabs vmin + Delta) / (vmax + Delta)).

(** ** correction_functions.hpp:50-330, SBE_DECOMPOSITION 0 *)
(** 67-73 *)
Definition bubble_Delta (reg : Z) (Gamma Lambda : R) : R := if (reg =? 2)%Z then (Gamma + Lambda) / 2 else Gamma / 2.
(** 365: asymp_corrections_loop *)
Definition loop_Delta (Gamma Lambda : R) : R := (Gamma + Lambda) / 2.
(** 290-322, DEBUG_SYMMETRIES 1: V for the spin component [spin], V^ for the other one *)
Definition spin_sum (ch : ascii) (spin : Z) (lV lVh rV rVh Pi : comp) : comp :=
  if (ch =? "a")%char then
    (if (spin =? 0)%Z then lV * Pi * rV else if (spin =? 1)%Z then lV * Pi * (rV + rVh) + (lV + lVh) * Pi * rV else rc 0)%C
  else if (ch =? "p")%char then
    (if (spin =? 0)%Z then lV * Pi * rV else if (spin =? 1)%Z then lV * Pi * rVh else rc 0)%C
  else if (ch =? "t")%char then
    (if (spin =? 0)%Z then lV * Pi * (rV + rVh) + (lV + lVh) * Pi * rV else if (spin =? 1)%Z then lV * Pi * rV else rc 0)%C
  else rc 0.
(** 400-418 Matsubara branch of asymp_corrections_loop: factor of the propagator; [bare s], [t s]: irred().val and left_same_bare of spin component s *)
Definition loop_factor_Matsubara (bare t : Z -> R) (ispin : Z) (all_spins : bool) : R :=
  let f := bare 0%Z + t ispin in if all_spins then f * 2 + t 1%Z else f.
(** 371-392 Keldysh branch, one of the three factors *)
Definition loop_factor_Keldysh (bare t : Z -> R) (ispin : Z) (all_spins : bool) : R :=
  let f := bare 0%Z + t ispin in if all_spins then f * 2 + (bare 1%Z + t 1%Z) else f.

(** ** bubble/bubble_function.hpp:423-428: limits of the Matsubara sum and of the tails, in units of pi T. [W] = w/2 as int, [corr] = signFlipCorrection_MF_int(w) *)
Definition Nmin_sum (pos W corr : Z) : Z := (- pos - Z.abs (Z.quot W 2) + corr)%Z.
Definition Nmax_sum (pos W : Z) : Z := (pos - 1 + Z.abs (Z.quot W 2))%Z.
Definition vmin_temp (pos W corr : Z) : Z := (2 * Nmin_sum pos W corr + 1)%Z.
Definition vmax_temp (pos W : Z) : Z := (2 * Nmax_sum pos W + 1)%Z.
(** 474-487 for K1 with a constant vertex: 2 pi T times the sum, plus the tails; [f]: bubble in units of pi T, [tail]: correction function of the scaled limits *)
Definition sum_with_tails (T : R) (f : Z -> R) (tail : R -> R -> R) (pos W corr : Z) : R :=
  2 * PI * T * over (map (fun i => Nmin_sum pos W corr + Z.of_nat i)%Z (seq 0 (Z.to_nat (Nmax_sum pos W - Nmin_sum pos W corr + 1)))) (fun n => f (2 * n + 1)%Z)
  + tail (IZR (vmin_temp pos W corr) * (PI * T)) (IZR (vmax_temp pos W) * (PI * T)).
