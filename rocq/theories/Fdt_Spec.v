(** Functions of a system in thermal equilibrium: contour components related by the Kubo-Martin-Schwinger
    condition and causality, and their Keldysh components. Stated for any grouping of the four legs of a
    vertex; independent of the formulas of the program. *)
From Coq Require Import Reals.
From Verif Require Import Prelude Gf_Model Fdt_Model.
Open Scope R_scope.

(** the four legs: outgoing 1', 2', incoming 1, 2 *)
Inductive leg := O1 | O2 | I1 | I2.

(** frequencies of the legs in the parametrisation of a channel *)
Definition leg_freq (ch : channel) (w v vp : R) (l : leg) : R :=
  match ch, l with
  | Ca, O1 => v - w / 2 | Ca, O2 => vp + w / 2 | Ca, I1 => vp - w / 2 | Ca, I2 => v + w / 2
  | Cp, O1 => w / 2 + v | Cp, O2 => w / 2 - v | Cp, I1 => w / 2 + vp | Cp, I2 => w / 2 - vp
  | Ct, O1 => vp + w / 2 | Ct, O2 => v - w / 2 | Ct, I1 => vp - w / 2 | Ct, I2 => v + w / 2
  end.
(** energy leaving through a leg *)
Definition leg_energy (ch : channel) (w v vp : R) (l : leg) : R :=
  match l with O1 | O2 => leg_freq ch w v vp l | I1 | I2 => - leg_freq ch w v vp l end.

(** legs at the same time form one vertex of the function *)
Definition group : Type := list leg.
Definition sumR (l : list R) : R := fold_right Rplus 0 l.
Definition group_energy (ch : channel) (w v vp : R) (g : group) : R := sumR (map (leg_energy ch w v vp) g).
Definition fermionic (g : group) : bool := Nat.odd (length g).

Definition groups_K1 (ch : channel) : list group :=
  match ch with Ca => [[O1; I2]; [O2; I1]] | Cp => [[O1; O2]; [I1; I2]] | Ct => [[O1; I1]; [O2; I2]] end.
Definition groups_K2 (ch : channel) : list group :=
  match ch with Ca => [[I2]; [O1]; [O2; I1]] | Cp => [[O1]; [O2]; [I1; I2]] | Ct => [[I2]; [O2]; [O1; I1]] end.
Definition groups_K3 : list group := [[O1]; [O2]; [I1]; [I2]].

(** all assignments of [n] contour branches *)
Fixpoint branches (n : nat) : list (list bool) :=
  match n with O => [[]] | S n' => map (cons false) (branches n') ++ map (cons true) (branches n') end.
Definition sumC (l : list comp) : comp := fold_right cadd (rc 0) l.
Definition prodR (l : list R) : R := fold_right Rmult 1 l.

(** weight of a group on the backward branch *)
Definition weight (ch : channel) (T w v vp : R) (g : group) (b : bool) : R :=
  if b then (if fermionic g then -1 else 1) * exp (group_energy ch w v vp g / T) else 1.

Definition thermal (ch : channel) (T w v vp : R) (gs : list group) (F : list bool -> comp) : Prop :=
  (forall j, In j (branches (length gs)) ->
     F (map negb j) = scal (- prodR (map (fun p => weight ch T w v vp (fst p) (snd p)) (combine gs j))) (conj (F j))) /\
  sumC (map F (branches (length gs))) = rc 0.

(** Keldysh index (true: index 1) of a leg of component [k] *)
Definition is_one (k : Z) (l : leg) : bool :=
  negb (Z.testbit k (match l with O1 => 3 | O2 => 2 | I1 => 1 | I2 => 0 end)%Z).
(** index of a group: product of the indices of its legs, taken at the same branch *)
Definition group_one (k : Z) (g : group) : bool := fold_right xorb false (map (is_one k) g).
Definition rotation (one branch : bool) : R := if one then (if branch then 1 else -1) else 1.
(** Keldysh component [k] of [F] up to the normalisation [n] *)
Definition keldysh_component (n : R) (gs : list group) (F : list bool -> comp) (k : Z) : comp :=
  scal n (sumC (map (fun j => scal (prodR (map (fun p => rotation (group_one k (fst p)) (snd p)) (combine gs j))) (F j))
                    (branches (length gs)))).

(** [val] holds the Keldysh components of a function in thermal equilibrium *)
Definition in_equilibrium (ch : channel) (T w v vp : R) (gs : list group) (val : Z -> comp) : Prop :=
  exists F n, thermal ch T w v vp gs F /\ forall k, (0 <= k < 16)%Z -> val k = keldysh_component n gs F k.

(** complex conjugation with exchange of in- and outgoing legs, at equal frequencies of both *)
Definition swap_legs (k : Z) : Z := (4 * (k mod 4) + k / 4)%Z.
Definition conjugation_symmetric (val : Z -> comp) : Prop :=
  forall k, (0 <= k < 16)%Z ->
    val (swap_legs k) = scal (if fold_right xorb true (map (is_one k) [O1; O2; I1; I2]) then -1 else 1) (conj (val k)).
