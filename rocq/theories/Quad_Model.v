(** Adaptive integration over a frequency interval.
    Model of integrator/integrator_NR.hpp. Integrands are real functions of a real frequency (a complex integrand is only compared by
    its absolute value); doubles are real numbers without rounding. The parameters of the class that depend on the machine are
    [tolerance_abs] (the machine epsilon) and the lower limit 10 * tolerance_abs of the relative tolerance. *)
From Coq Require Import Reals.
From Verif Require Import Prelude.
Open Scope R_scope.

(** 34-36 *)
Definition Gauss_Lobatto_4 (h f1 f2 f3 f4 : R) : R := h / 6 * (f1 + f4 + 5 * (f2 + f3)).
(** 39-44 *)
Definition Gauss_Kronrod_7 (h f1 f2 f3 f4 f5 f6 f7 : R) : R := h / 1470 * (77 * (f1 + f7) + 432 * (f2 + f6) + 625 * (f3 + f5) + 672 * f4).
(** 47-57 *)
Definition Gauss_Kronrod_13 (h f1 f2 f3 f4 f5 f6 f7 f8 f9 f10 f11 f12 f13 : R) : R :=
  h * (158271919734802 / 10 ^ 16 * (f1 + f13) + 942738402188500 / 10 ^ 16 * (f2 + f12) + 155071987336585 / 10 ^ 15 * (f3 + f11)
     + 188821573960182 / 10 ^ 15 * (f4 + f10) + 199773405226859 / 10 ^ 15 * (f5 + f9) + 224926465333340 / 10 ^ 15 * (f6 + f8)
     + 242611071901408 / 10 ^ 15 * f7).
(** 148-159 *)
Definition alpha : R := sqrt (2 / 3).
Definition beta : R := 1 / sqrt 5.
Definition x1 : R := 942882415695480 / 10 ^ 15.
Definition x2 : R := 641853342345781 / 10 ^ 15.
Definition x3 : R := 236383199662150 / 10 ^ 15.
(** std::numeric_limits<double>::epsilon() *)
Definition tolerance_abs : R := / 2 ^ 52.
(** 20-23 *)
Definition adapt_TOL (tol_in : R) : R := if Rlt_dec tol_in (10 * tolerance_abs) then 10 * tolerance_abs else tol_in.

(** 108-143: recursion; [None]: out of fuel *)
Fixpoint integrate_sub (fuel : nat) (f : R -> R) (tolerance_rel : R) (a b fa fb is : R) : option R :=
  match fuel with
  | O => None
  | S k =>
      let m := 1 / 2 * (a + b) in
      let h := 1 / 2 * (b - a) in
      let y0 := m - alpha * h in let y1 := m - beta * h in let y2 := m in let y3 := m + beta * h in let y4 := m + alpha * h in
      let i1 := Gauss_Lobatto_4 h fa (f y1) (f y3) fb in
      let i2 := Gauss_Kronrod_7 h fa (f y0) (f y1) (f y2) (f y3) (f y4) fb in
      if Rlt_dec (Rabs (i2 - i1)) (Rmax tolerance_abs (tolerance_rel * Rabs is)) then Some i2
      else if Rlt_dec y0 a then Some i2
      else if Rlt_dec b y4 then Some i2
      else
        s1 <- integrate_sub k f tolerance_rel a y0 fa (f y0) is ;;
        s2 <- integrate_sub k f tolerance_rel y0 y1 (f y0) (f y1) is ;;
        s3 <- integrate_sub k f tolerance_rel y1 y2 (f y1) (f y2) is ;;
        s4 <- integrate_sub k f tolerance_rel y2 y3 (f y2) (f y3) is ;;
        s5 <- integrate_sub k f tolerance_rel y3 y4 (f y3) (f y4) is ;;
        s6 <- integrate_sub k f tolerance_rel y4 b (f y4) fb is ;;
        Some (s1 + s2 + s3 + s4 + s5 + s6)
  end.

(** 59-106 *)
Definition thirteen (f : R -> R) (a b : R) : R :=
  let m := 1 / 2 * (b + a) in
  let h := 1 / 2 * (b - a) in
  Gauss_Kronrod_13 h (f a) (f (m + - x1 * h)) (f (m + - alpha * h)) (f (m + - x2 * h)) (f (m + - beta * h)) (f (m + - x3 * h)) (f (m + 0 * h))
    (f (m + x3 * h)) (f (m + beta * h)) (f (m + x2 * h)) (f (m + alpha * h)) (f (m + x1 * h)) (f b).
Definition integrate (fuel : nat) (tol_in : R) (f : R -> R) (a b : R) : option R :=
  let TOL := adapt_TOL tol_in in
  let m := 1 / 2 * (b + a) in
  let h := 1 / 2 * (b - a) in
  let y2 := m + - alpha * h in let y4 := m + - beta * h in let y6 := m + 0 * h in let y8 := m + beta * h in let y10 := m + alpha * h in
  let i1 := Gauss_Lobatto_4 h (f a) (f y4) (f y8) (f b) in
  let i2 := Gauss_Kronrod_7 h (f a) (f y2) (f y4) (f y6) (f y8) (f y10) (f b) in
  let is := thirteen f a b in
  let err_i1 := Rabs (i1 - is) in
  let err_i2 := Rabs (i2 - is) in
  let r := if Req_EM_T err_i1 0 then 1 else err_i2 / err_i1 in
  let tolerance_rel := if Rlt_dec 0 r then if Rlt_dec r 1 then TOL / r else TOL else TOL in
  if Rlt_dec (Rabs is) (/ 10 ^ 20) then Some 0
  else if Rle_dec b a then Some 0
  else
    let small x := if Rlt_dec (Rabs x) (Rmax tolerance_abs (tolerance_rel * Rabs is)) then true else false in
    if small (i2 - i1) && small (i2 - is) then Some i2
    else if Rlt_dec (b - a) tolerance_abs then Some i2
    else
      s1 <- integrate_sub fuel f tolerance_rel a y2 (f a) (f y2) is ;;
      s2 <- integrate_sub fuel f tolerance_rel y2 y4 (f y2) (f y4) is ;;
      s3 <- integrate_sub fuel f tolerance_rel y4 y6 (f y4) (f y6) is ;;
      s4 <- integrate_sub fuel f tolerance_rel y6 y8 (f y6) (f y8) is ;;
      s5 <- integrate_sub fuel f tolerance_rel y8 y10 (f y8) (f y10) is ;;
      s6 <- integrate_sub fuel f tolerance_rel y10 b (f y10) (f b) is ;;
      Some (s1 + s2 + s3 + s4 + s5 + s6).

(** 163-193: integrands for the tails above and below a frequency b, integrated over (1e-14, 1] *)
Definition reparametrized_Upper (f : R -> R) (b x : R) : R := f (b + (1 - x) / x) / (x * x).
Definition reparametrized_Lower (f : R -> R) (b x : R) : R := f (b - (1 - x) / x) / (x * x).
Definition tail_Upper (fuel : nat) (tol : R) (f : R -> R) (b : R) : option R := integrate fuel tol (reparametrized_Upper f b) (/ 10 ^ 14) 1.
Definition tail_Lower (fuel : nat) (tol : R) (f : R -> R) (b : R) : option R := integrate fuel tol (reparametrized_Lower f b) (/ 10 ^ 14) 1.
