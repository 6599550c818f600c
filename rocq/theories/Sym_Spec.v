(** Specification of the symmetry operations on the four labelled legs of a vertex. *)
From Coq Require Import QArith.
From Verif Require Import Prelude Keld_Model Util_Spec Sym_Model.
Open Scope Z_scope.

(** a leg carries a frequency; a vertex value is labelled by the frequencies and the Keldysh indices of
    its legs (1',2'|1,2) *)
Record klegs := mkK { a1' : Z; a2' : Z; a1 : Z; a2 : Z }.

(** exchange of the incoming legs 1 and 2 *)
Definition swap_in_f (l : legs) : legs := mkLegs (n1' l) (n2' l) (n2 l) (n1 l).
Definition swap_in_k (k : klegs) : klegs := mkK (a1' k) (a2' k) (a2 k) (a1 k).
(** exchange of the outgoing legs 1' and 2' *)
Definition swap_out_f (l : legs) : legs := mkLegs (n2' l) (n1' l) (n1 l) (n2 l).
Definition swap_out_k (k : klegs) : klegs := mkK (a2' k) (a1' k) (a1 k) (a2 k).
(** exchange of incoming with outgoing legs *)
Definition in_out_f (l : legs) : legs := mkLegs (n1 l) (n2 l) (n1' l) (n2' l).
Definition in_out_k (k : klegs) : klegs := mkK (a1 k) (a2 k) (a1' k) (a2' k).
(** reversal of all frequencies *)
Definition minus_f (l : legs) : legs := mkLegs (- n1' l) (- n2' l) (- n1 l) (- n2 l)%Q.

(** the Keldysh index of four legs with values 1 or 2 is the binary number of (index - 1) *)
Definition kcode (k : klegs) : Z := 8 * (a1' k - 1) + 4 * (a2' k - 1) + 2 * (a1 k - 1) + (a2 k - 1).
Definition is12 (z : Z) : Prop := z = 1 \/ z = 2.
Definition klegs_ok (k : klegs) : Prop := is12 (a1' k) /\ is12 (a2' k) /\ is12 (a1 k) /\ is12 (a2 k).
(** the sign (-1)^(1 + sum of Keldysh indices) of complex conjugation *)
Definition conj_factor (k : klegs) : Q := if Z.even (a1' k + a2' k + a1 k + a2 k) then (-1)%Q else 1%Q.
(** frequencies of the formalism: at finite-temperature Matsubara the legs are [legs_mf], otherwise
    the natural parametrisation *)
Definition legs_are (matsubara_finite_T : bool) (ch : chan) (f : Q * Q * Q) (l : legs) : Prop :=
  if matsubara_finite_T then legs_mf ch f l else legs_eq l (legs_of ch f).

(** equality of transformation records; rational numbers up to [==] *)
Definition ieq (x y : indices) : Prop :=
  iK x = iK y /\ spin x = spin y /\ (w x == w y)%Q /\ (v1 x == v1 y)%Q /\ (v2 x == v2 y)%Q /\
  iw_r x = iw_r y /\ (prefactor x == prefactor y)%Q /\ conjugate x = conjugate y /\
  asymmetry_transform x = asymmetry_transform y /\ channel_rvert x = channel_rvert y.
Definition oieq (o1 o2 : option indices) : Prop :=
  exists x y, o1 = Some x /\ o2 = Some y /\ ieq x y.

(** valid input: Keldysh index in range; transfer frequency bosonic at Matsubara frequencies *)
Definition wf (c : cfg) (x : indices) : Prop :=
  (keldysh c = true -> 0 <= iK x < 16) /\ (mf c = true -> bosonic (w x)).


(** a transformation code lists elementary operations by its decimal digits *)
Definition digits (i : Z) : list Z :=
  if i =? 0 then [] else if i <? 10 then [i] else if i <? 100 then [i / 10; i mod 10]
  else [i / 100; i / 10 mod 10; i mod 10].
Definition elementary (c : cfg) (sbe : bool) (d : Z) (x : indices) : option indices :=
  if d =? 1 then T1 c sbe x else if d =? 2 then T2 c sbe x
  else if d =? 3 then (y <- T1 c sbe x ;; T2 c sbe y) else if d =? 4 then TC c sbe x
  else if d =? 6 then Tph c sbe x else if d =? 7 then TR c sbe x else None.
Fixpoint compose (c : cfg) (sbe : bool) (ds : list Z) (x : indices) : option indices :=
  match ds with [] => Some x | d :: r => y <- elementary c sbe d x ;; compose c sbe r y end.
(** the codes that are understood *)
Definition codes (c : cfg) : list Z :=
  [0; 1; 2; 3; 4; 14; 24; 41; 43; 34; 7; 37; 47; 347] ++
  (if keldysh c && phs c then [6; 16; 26; 36; 46; 146; 246; 346] else []).
