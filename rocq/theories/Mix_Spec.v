(** What is expected of the mixing of states. *)
From Coq Require Import Reals.
From Verif Require Import Prelude Arr_Model State_Model State_Spec Mix_Model.
Open Scope R_scope.

(** the routine that inverts matrices is right whenever it gives a result *)
Definition inverts (inverse : list (list R) -> option (list (list R))) : Prop :=
  forall m i x, inverse m = Some i -> length x = length m -> mat_vec m (mat_vec i x) = x.

(** the self-energy including the Hartree term: the first [n] numbers are the retarded component *)
Definition full_selfenergy (n : nat) (s : state) (k : nat) : option comp :=
  if (k <? n)%nat then lift2 cadd (entry s (LSigma k)) (entry s LAsymp) else entry s (LSigma k).
(** residual of one evaluation *)
Definition is_residual (n : nat) (rhs step : state) (e : list comp) : Prop :=
  forall k, nth_error e k = lift2 csub (full_selfenergy n rhs k) (full_selfenergy n step k).

(** weighted sum of vectors with [n] components, and the square of the norm *)
Fixpoint weighted (n : nat) (beta : list R) (vs : list (list comp)) : list comp :=
  match beta, vs with
  | b :: beta', v :: vs' => zip2 cadd (map (fun x => cscale x b) v) (weighted n beta' vs')
  | _, _ => repeat (0, 0) n
  end.
Definition norm2 (v : list comp) : R := sumR (map (fun x => fst x * fst x + snd x * snd x) v).

(** sum of alpha_i (zeta x_i + (1 - zeta) y_i) *)
Fixpoint mixed_value (zeta : R) (alpha : list R) (xs ys : list comp) : comp :=
  match alpha, xs, ys with
  | a :: alpha', x :: xs', y :: ys' => cadd (cscale (cadd (cscale x zeta) (cscale y (1 - zeta))) a) (mixed_value zeta alpha' xs' ys')
  | _, _, _ => (0, 0)
  end.
(** all states of a history can be combined *)
Definition compatible (l : list state) : Prop := forall s t, In s l -> In t l -> matching s t.
