(** Splines: what is expected. *)
From Coq Require Import Reals List.
Import ListNotations.
From Verif Require Import Interp_Spec.
Open Scope R_scope.

(** lower (0) or upper (h) end of a cell of size [h] *)
Definition at_end (c : bool) (h : R) : R := if c then h else 0.

(** sums of products of cubic polynomials in each variable, and their partial derivatives *)
Definition cub := (R * R * R * R)%type.
Definition d (k : bool) (p : cub) : R -> R := if k then cubic' p else cubic p.
Definition poly2 (l : list (cub * cub)) (dx dy : bool) (x y : R) : R :=
  sumR (map (fun t => d dx (fst t) x * d dy (snd t) y) l).
Definition poly3 (l : list (cub * cub * cub)) (dx dy dz : bool) (x y z : R) : R :=
  sumR (map (fun t => d dx (fst (fst t)) x * d dy (snd (fst t)) y * d dz (snd t) z) l).
