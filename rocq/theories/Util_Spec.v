(** Specifications for the utilities: leg frequencies of the four-point vertex, parity. *)
From Coq Require Import QArith.
From Verif Require Import Prelude Keld_Model.
Open Scope Q_scope.

(** The four legs (1',2'|1,2) of a vertex carry frequencies with nu1' + nu2' = nu1 + nu2.
    The transfer frequencies of the channels: *)
Record legs := mkLegs { n1' : Q; n2' : Q; n1 : Q; n2 : Q }.
Definition conserved (l : legs) : Prop := n1' l + n2' l == n1 l + n2 l.
Definition transfer (ch : chan) (l : legs) : Q :=
  match ch with Ca => n2' l - n1 l | Cp => n1' l + n2' l | Ct => n1' l - n1 l end.

(** natural parametrisation (w, v, v'): which legs belong to v and v' *)
Definition legs_of (ch : chan) (f : Q * Q * Q) : legs :=
  let '(w, v, v') := f in
  match ch with
  | Ca => mkLegs (v - w / 2) (v' + w / 2) (v' - w / 2) (v + w / 2)
  | Cp => mkLegs (w / 2 + v) (w / 2 - v) (w / 2 + v') (w / 2 - v')
  | Ct => mkLegs (v' + w / 2) (v - w / 2) (v' - w / 2) (v + w / 2)
  end.
Definition legs_eq (a b : legs) : Prop :=
  n1' a == n1' b /\ n2' a == n2' b /\ n1 a == n1 b /\ n2 a == n2 b.
Definition trip_eq (a b : Q * Q * Q) : Prop :=
  fst (fst a) == fst (fst b) /\ snd (fst a) == snd (fst b) /\ snd a == snd b.

(** Matsubara frequencies in units of pi T: even (bosonic) and odd (fermionic) integers *)
Definition bosonic (x : Q) : Prop := exists n : Z, x == inject_Z (2 * n).
Definition fermionic (x : Q) : Prop := exists n : Z, x == inject_Z (2 * n + 1).

(** finite temperature: half the transfer frequency is split into a lower even part [lo] and an upper
    even part [hi]; the legs are *)
Definition legs_split (ch : chan) (lo hi : Q) (v v' : Q) : legs :=
  match ch with
  | Ca => mkLegs (v - lo) (v' + hi) (v' - lo) (v + hi)
  | Cp => mkLegs (hi + v) (lo - v) (hi + v') (lo - v')
  | Ct => mkLegs (v' + hi) (v - lo) (v' - lo) (v + hi)
  end.
(** [lo] and [hi] are the even neighbours of w/2 that add up to w *)
Definition half_split (w lo hi : Q) : Prop :=
  bosonic lo /\ bosonic hi /\ lo + hi == w /\ lo <= w / 2 /\ w / 2 <= hi /\ hi - lo <= 2.
Definition legs_mf (ch : chan) (f : Q * Q * Q) (l : legs) : Prop :=
  let '(w, v, v') := f in
  exists lo hi, half_split w lo hi /\ legs_eq l (legs_split ch lo hi v v').
