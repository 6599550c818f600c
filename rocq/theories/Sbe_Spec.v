(** * Specification for the single-boson exchange decomposition *)
From Coq Require Import ZArith Bool List.
From Verif Require Import Tab_Model Sbe_Model.
From Coq Require Import Ncring Ncring_tac.

Section Spec.
Context {R : Type} `{Rr : Ring R}.
Context {V : Type}.

(** spin index 2 is the sum of the two spin components *)
Definition sum2 (f : Z -> R) : Prop := f 2%Z == f 0%Z + f 1%Z.
Definition sums (X : vx R V) : Prop :=
  sum2 (bare X) /\ sum2 (K1 X) /\ (forall v, sum2 (fun s => K2 X s v))
  /\ (forall v, sum2 (fun s => K2b X s v)) /\ (forall v v', sum2 (fun s => K3 X s v v'))
  /\ (forall v v', sum2 (fun s => rest X s v v')).
(** extension of two spin components by their sum *)
Definition with2 (f : Z -> R) (s : Z) : R := if Z.eqb s 2 then f 0%Z + f 1%Z else f s.

(** an integral: additive, linear from both sides, depends on the values only *)
Definition integral_like (I : (V -> R) -> R) : Prop :=
  (forall f g, (forall u, f u == g u) -> I f == I g)
  /\ (forall f g, I (fun u => f u + g u) == I f + I g)
  /\ (forall a f, I (fun u => a * f u) == a * I f)
  /\ (forall a f, I (fun u => f u * a) == I f * a).

(** the vertex in terms of the usual classes: w = bare + K1 unchanged, K2 = lambda w,
    K2' = w lambdabar, K3 = multi-boson part + lambda w lambdabar *)
Definition w_of (X : vx R V) (s : Z) : R := K1 X s + bare X s.
Definition usual (ch : chan) (X : vx R V) : vx R V :=
  mkVx (bare X) (K1 X) (build_K2 ch (K2 X) (w_of X)) (build_K2b ch (K2b X) (w_of X))
       (fun s v v' => K3 X s v v' + build_K3 ch (build_K2 ch (K2 X) (w_of X)) (K2b X) s v v')
       (rest X).

(** a vertex without the channel of the bubble, written as a vertex whose classes vanish *)
Definition stripped (irr : bool) (X : vx R V) : vx R V :=
  if irr then mkVx (bare X) (fun _ => 0) (fun _ _ => 0) (fun _ _ => 0) (fun _ _ _ => 0) (rest X)
  else X.

(** crossing symmetry in the particle-particle channel: exchanging the two legs on the right of
    the part that is not reducible by cutting a boson line changes the spin component and the sign,
    [rho] is the corresponding reflection of the frequency *)
Definition crossing_right_leg (rho : V -> V) (X : vx R V) : Prop :=
  forall v u, K3 X 1%Z v u + rest X 1%Z v u == - (K3 X 0%Z v (rho u) + rest X 0%Z v (rho u)).
Definition reflection_invariant (I : (V -> R) -> R) (rho : V -> V) : Prop :=
  forall f, I (fun u => f (rho u)) == I f.

(** spin sum: a vertex between two spin states is [f 2] for equal and [f s] for different spins *)
Definition spinmat (f : Z -> R) (s : Z) (a b : bool) : R := if Bool.eqb a b then f 2%Z else f s.
Definition both_spins (g : bool -> R) : R := g true + g false.

(** dual numbers a + b eps with eps^2 = 0: derivatives of products *)
Record dual := mkD { d0 : R; d1 : R }.
Definition dual_eq (a b : dual) : Prop := d0 a == d0 b /\ d1 a == d1 b.
Definition dzero := mkD 0 0.
Definition done := mkD 1 0.
Definition dadd (a b : dual) := mkD (d0 a + d0 b) (d1 a + d1 b).
Definition dmul (a b : dual) := mkD (d0 a * d0 b) (d0 a * d1 b + d1 a * d0 b).
Definition dsub (a b : dual) := mkD (d0 a - d0 b) (d1 a - d1 b).
Definition dopp (a : dual) := mkD (- d0 a) (- d1 a).
Global Instance dual_ops : @Ring_ops dual dzero done dadd dmul dsub dopp dual_eq := {}.

Definition dual_bufs (B D : bufs R V) : bufs dual V :=
  mkB (fun s => mkD (bbare B s) (bbare D s))
      (fun c s => mkD (bK1 B c s) (bK1 D c s))
      (fun c s v => mkD (bK2 B c s v) (bK2 D c s v))
      (fun c s v => mkD (bK2b B c s v) (bK2b D c s v))
      (fun c s v v' => mkD (bK3 B c s v v') (bK3 D c s v v'))
      (fun c s v v' => mkD (bK3S B c s v v') (bK3S D c s v v')).

End Spec.
Arguments dual R : clear implicits.
