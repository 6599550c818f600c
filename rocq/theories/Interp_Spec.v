(** Multilinear interpolation, tails and cubic interpolation: what is expected, independent of the model. *)
From Coq Require Import Reals List ZArith.
Import ListNotations.
Open Scope R_scope.

(** interpolation between corner values f(o), o in {0,1}^n, at relative position ds in [0,1]^n, one dimension after
    the other *)
Fixpoint multilinear (ds : list R) (f : list Z -> R) : R :=
  match ds with
  | [] => f []
  | d :: ds' => (1 - d) * multilinear ds' (fun o => f (0%Z :: o)) + d * multilinear ds' (fun o => f (1%Z :: o))
  end.

(** [F] of [n] variables is affine in each of them *)
Definition multiaffine (n : nat) (F : list R -> R) : Prop :=
  forall l x y s r, (length l + 1 + length r = n)%nat ->
    F (l ++ ((1 - s) * x + s * y) :: r) = (1 - s) * F (l ++ x :: r) + s * F (l ++ y :: r).

(** sum of a list *)
Fixpoint sumR (l : list R) : R := match l with [] => 0 | x :: r => x + sumR r end.

(** corner [o] of a cell *)
Definition corner (o : list Z) (n : nat) : Prop := length o = n /\ Forall (fun z => z = 0%Z \/ z = 1%Z) o.

(** a cubic polynomial and its derivative *)
Definition cubic (c : R * R * R * R) (x : R) : R := let '(c0, c1, c2, c3) := c in c0 + c1 * x + c2 * x * x + c3 * x * x * x.
Definition cubic' (c : R * R * R * R) (x : R) : R := let '(c0, c1, c2, c3) := c in c1 + 2 * c2 * x + 3 * c3 * x * x.
