(** Self-consistent determination of the Hartree term.
    Model of perturbation_theory_and_parquet/hartree_term.c++:25-96. The evaluation of the filling for a given constant self-energy
    (compute_filling_oneshot, an integral over the propagator) is a parameter; [None]: not a number. Doubles are real numbers
    without rounding; printing and the check of the Friedel sum rule are left out. *)
From Coq Require Import Reals.
From Verif Require Import Prelude.
Open Scope R_scope.

(** value and filling on return, with the number of evaluations and the enclosing interval *)
Inductive hartree := Found (value filling : R) (n_iter : Z) (lo hi : R) | AssertionFailed | OutOfFuel (lo hi : R).
(** 50-67 *)
Fixpoint bisection (fuel : nat) (oneshot : R -> option R) (U threshold : R) (LHS filling lo hi : R) (n_iter : Z) : hartree :=
  match fuel with
  | O => OutOfFuel lo hi
  | S f =>
      if Rlt_dec threshold (Rabs LHS) then
        if (n_iter <? 100000)%Z then
          let mid := (lo + hi) / 2 in
          match oneshot (U * mid) with
          | None => Found (U * mid) mid (n_iter + 1) lo hi       (* neither positive nor negative: taken as exact *)
          | Some n =>
              let d := n - mid in
              if Rlt_dec 0 d then bisection f oneshot U threshold d mid mid hi (n_iter + 1)
              else if Rlt_dec d 0 then bisection f oneshot U threshold d mid lo mid (n_iter + 1)
              else Found (U * mid) mid (n_iter + 1) lo hi
          end
        else AssertionFailed
      else Found (U * filling) filling n_iter lo hi
  end.
(** 42-76 *)
Definition compute_Hartree_term_bracketing (fuel : nat) (oneshot : R -> option R) (U threshold : R) : hartree :=
  bisection fuel oneshot U threshold 1 (1 / 2) 0 1 0.

(** 25-39: plain iteration; [None]: out of fuel. A difference that is not a number ends the loop *)
Fixpoint plain (fuel : nat) (oneshot : R -> option R) (U threshold : R) (diff : R) (hartree_value filling : R) : option (option R) :=
  match fuel with
  | O => None
  | S f =>
      if Rlt_dec threshold (Rabs diff) then
        match oneshot hartree_value with
        | None => Some None
        | Some n => plain f oneshot U threshold (n - filling) (U * n) n
        end
      else Some (Some (U * filling))
  end.
Definition compute_Hartree_term (fuel : nat) (oneshot : R -> option R) (U threshold : R) : option (option R) :=
  plain fuel oneshot U threshold 1 (U * (1 / 2)) (1 / 2).
