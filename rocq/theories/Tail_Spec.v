(** Integrals over the frequencies above and below a finite range. *)
From Coq Require Import Reals ZArith.
From Verif Require Import Gf_Model.
Open Scope R_scope.

Definition tends (F : R -> R) (l : R) : Prop := forall e, 0 < e -> exists M, forall x, M <= x -> Rabs (F x - l) < e.
(** [I] is the integral of [f] over [[v, infinity)]: limit of an antiderivative minus its value at [v] *)
Definition tail_above (f : R -> R) (v I : R) : Prop :=
  exists F l, (forall x, v <= x -> derivable_pt_lim F x (f x)) /\ tends F l /\ I = l - F v.
(** [I] is the integral of [f] over [(-infinity, v]] *)
Definition tail_below (f : R -> R) (v I : R) : Prop := tail_above (fun x => f (- x)) (- v) I.
Definition tails (f : R -> R) (vmin vmax I : R) : Prop := exists J K, tail_above f vmax J /\ tail_below f vmin K /\ I = J + K.
(** the same with limits of integration going to plus and minus infinity together *)
Definition principal_tails (f : R -> R) (vmin vmax I : R) : Prop :=
  exists F H, (forall x, vmax <= x -> derivable_pt_lim F x (f x)) /\ (forall x, - vmin <= x -> derivable_pt_lim H x (f (- x))) /\
    tends (fun x => F x - F vmax + (H x - H (- vmin))) I.
(** complex functions: component by component *)
Definition ctail_above (f : R -> comp) (v : R) (I : comp) : Prop := tail_above (fun x => fst (f x)) v (fst I) /\ tail_above (fun x => snd (f x)) v (snd I).
Definition ctails (f : R -> comp) (vmin vmax : R) (I : comp) : Prop := tails (fun x => fst (f x)) vmin vmax (fst I) /\ tails (fun x => snd (f x)) vmin vmax (snd I).

(** imaginary part (up to the sign -1) of the Matsubara propagator at particle-hole symmetry once the self-energy has decayed *)
Definition decayed (Delta v : R) : R := / (v + Delta * sign v).
(** the bubble in the a and t channels, and in the p channel; -1 = i^2 *)
Definition bubble_at (g : R -> R) (w v : R) : R := - (g (v - w / 2) * g (v + w / 2)).
Definition bubble_p (g : R -> R) (w v : R) : R := - (g (w / 2 + v) * g (w / 2 - v)).
(** the regulator of the frequency cutoff times the decayed propagator *)
Definition cut (Lambda Delta v : R) : R := v * v / (v * v + Lambda * Lambda) * decayed Delta v.
(** away from particle-hole symmetry: complex propagator 1 / (i (v + Delta sgn v) - eps) *)
Definition cdecayed (Delta eps v : R) : comp := cinv (ci * rc (v + Delta * sign v)%R - rc eps)%C.
Definition cbubble_at (g : R -> comp) (w v : R) : comp := cmul (g (v - w / 2)) (g (v + w / 2)).
Definition cbubble_p (g : R -> comp) (w v : R) : comp := cmul (g (w / 2 + v)) (g (w / 2 - v)).
(** partial sums of a sum over all fermionic Matsubara frequencies, given as odd integers *)
Fixpoint symmetric_sum (f : Z -> R) (n : nat) : R :=
  match n with O => 0 | Datatypes.S m => symmetric_sum f m + (f (2 * Z.of_nat m + 1)%Z + f (- 2 * Z.of_nat m - 1)%Z) end.
