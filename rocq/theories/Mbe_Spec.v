(** Independent description for C134. *)
From Coq Require Import Reals ZArith List.
From Verif Require Import Dom_Spec Mbe_Model.
Import ListNotations.
Open Scope Z_scope.

(** position of an entry: index of v outside, index of v' inside; classes without one of them have one index *)
Definition position (k : bclass) (n3 iv ivp : Z) : nat :=
  Z.to_nat match k with bk1 => 0 | bk2 => iv | bk2b => ivp | bk3 => iv * n3 + ivp end.
Definition in_class (k : bclass) (n2 n3 iv ivp : Z) : Prop :=
  match k with bk1 => iv = 0 /\ ivp = 0 | bk2 => 0 <= iv < n2 /\ ivp = 0 | bk2b => iv = 0 /\ 0 <= ivp < n2 | bk3 => 0 <= iv < n3 /\ 0 <= ivp < n3 end.
(** the i-th of n fermionic frequencies, in units of pi T: -(n-1), ..., -1, 1, ..., n-1 *)
Definition frequency (n i : Z) : Z := 2 * i - n + 1.
(** a vertex evaluated without or with its external frequency *)
Definition leftv (k : bclass) (S : Z -> nat -> R) (D : Z -> Z -> nat -> R) (n2 n3 iv : Z) (x : Z) (s : nat) : R :=
  match k with bk1 | bk2b => S x s | bk2 => D (frequency n2 iv) x s | bk3 => D (frequency n3 iv) x s end.
Definition rightv (k : bclass) (S : Z -> nat -> R) (D : Z -> Z -> nat -> R) (n2 n3 ivp : Z) (x : Z) (s : nat) : R :=
  match k with bk1 | bk2 => S x s | bk2b => D x (frequency n2 ivp) s | bk3 => D x (frequency n3 ivp) s end.
(** T times the sum over the fermionic frequencies x1, x1+2, ..., x2 *)
Definition frequency_sum (f : Z -> R) (lo hi : Z) : R := sum_to (fun n => f (2 * n + 1)) lo (Z.to_nat (hi - lo + 1)).
(** product of left vertex, propagators and right vertex, summed over the terms of the spin sum *)
Definition product (l : Z -> nat -> R) (P : Z -> nat -> R) (r : Z -> nat -> R) (ns : nat) (x : Z) : R := sum_below (fun s => (l x s * P x s * r x s)%R) ns.
(** sign as an index; the entry of a table of symmetry transformations that belongs to a frequency point *)
Definition sgn (x : Z) : nat := if 0 <? x then 1%nat else 0%nat.
