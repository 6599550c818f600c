(** What the Keldysh bookkeeping is supposed to compute, in terms of labelled legs.
    A leg index is a boolean ([false] for the index 1, [true] for the index 2 of the code). *)
From Coq Require Import QArith.
From Verif Require Import Prelude Cplx Keld_Model.

(** ** component number of a vertex with legs (1',2'|1,2), and of a pair of propagators
    with end points (3,4|3',4') *)
Definition code4 (a b c d : bool) : Z := 8 * Z.b2z a + 4 * Z.b2z b + 2 * Z.b2z c + Z.b2z d.
Definition tuple4 (a b c d : bool) : list Z := [Z.b2z a + 1; Z.b2z b + 1; Z.b2z c + 1; Z.b2z d + 1].

(** ** finite sums *)
Definition csum {A} (l : list A) (f : A -> cplx) : cplx := fold_right (fun a s => (f a + s)%C) C0 l.
Definition bits : list bool := [false; true].
Definition sum4 (f : bool -> bool -> bool -> bool -> cplx) : cplx :=
  csum bits (fun a => csum bits (fun b => csum bits (fun c => csum bits (fun d => f a b c d)))).

(** ** propagator as a 2x2 matrix (G^{11}=0, G^{12}=G^A, G^{21}=G^R, G^{22}=G^K) *)
Definition Gmat (g : prop) (v : Q) (x y : bool) : cplx :=
  match x, y with
  | false, false => C0
  | false, true => Cconj (gR g v)
  | true, false => gR g v
  | true, true => gK g v
  end.
(** two lines: one from 3' to 3 and one from 4' to 4 *)
Definition pair_of_lines (G1 G2 : bool -> bool -> cplx) (x3 x4 x3' x4' : bool) : cplx :=
  (G1 x3 x3' * G2 x4 x4')%C.
(** derivative of a pair of lines *)
Definition pair_of_lines_diff (G1 G2 S1 S2 : bool -> bool -> cplx) (x3 x4 x3' x4' : bool) : cplx :=
  (G1 x3 x3' * S2 x4 x4' + S1 x3 x3' * G2 x4 x4')%C.
(** frequencies of the two lines: transfer frequency w, integration frequency v *)
Definition line1 (ch : chan) (w v : Q) : Q := (match ch with Cp => v + w / 2 | _ => v - w / 2 end)%Q.
Definition line2 (ch : chan) (w v : Q) : Q := (match ch with Cp => w / 2 - v | _ => v + w / 2 end)%Q.
Definition lines (ch : chan) (diff : bool) (g s : prop) (w v : Q) : bool -> bool -> bool -> bool -> cplx :=
  let G1 := Gmat g (line1 ch w v) in let G2 := Gmat g (line2 ch w v) in
  let S1 := Gmat s (line1 ch w v) in let S2 := Gmat s (line2 ch w v) in
  if diff then pair_of_lines_diff G1 G2 S1 S2 else pair_of_lines G1 G2.

(** ** the bubble diagrams: two vertices joined by a pair of lines.
    a: left vertex (1',4'|3,2), right vertex (3',2'|1,4)
    p: left vertex (1',2'|3,4), right vertex (3',4'|1,2)
    t: left vertex (4',2'|3,2), right vertex (1',3'|1,4) *)
Definition left_legs {A B} (ch : chan) (V : A -> A -> A -> A -> B) (e1' e2' e1 e2 x3 x4 x3' x4' : A) : B :=
  match ch with
  | Ca => V e1' x4' x3 e2
  | Cp => V e1' e2' x3 x4
  | Ct => V x4' e2' x3 e2
  end.
Definition right_legs {A B} (ch : chan) (V : A -> A -> A -> A -> B) (e1' e2' e1 e2 x3 x4 x3' x4' : A) : B :=
  match ch with
  | Ca => V x3' e2' e1 x4
  | Cp => V x3' x4' e1 e2
  | Ct => V e1' x3' e1 x4
  end.
Definition diagram (ch : chan) (VL : Z -> cplx) (P : bool -> bool -> bool -> bool -> cplx) (VR : Z -> cplx)
  (e1' e2' e1 e2 : bool) : cplx :=
  sum4 (fun x3 x4 x3' x4' =>
          (VL (left_legs ch code4 e1' e2' e1 e2 x3 x4 x3' x4')
           * P x3 x4 x3' x4'
           * VR (right_legs ch code4 e1' e2' e1 e2 x3 x4 x3' x4'))%C).

(** ** spin.  A spin-rotation invariant vertex is determined by the components
    V = (up,down|up,down) (number 0) and Vhat = (up,down|down,up) (number 1). *)
Definition full_spin (V : Z -> Z -> cplx) (s1' s2' s1 s2 : bool) (k : Z) : cplx :=
  let same := Bool.eqb s1' s1 && Bool.eqb s2' s2 in
  let crossed := Bool.eqb s1' s2 && Bool.eqb s2' s1 in
  ((if same then V 0 k else C0) + (if crossed then V 1 k else C0))%C.
(** the external spins of the two components *)
Definition ext_spins (spin : Z) : bool * bool * bool * bool :=
  if spin =? 0 then (true, false, true, false) else (true, false, false, true).
(** sum over the spins of the two lines, which conserve the spin *)
Definition spin_diagram (ch : chan) (spin : Z) (VL VR : Z -> Z -> cplx)
  (P : bool -> bool -> bool -> bool -> cplx) (e1' e2' e1 e2 : bool) : cplx :=
  let '(s1', s2', s1, s2) := ext_spins spin in
  csum bits (fun s3 => csum bits (fun s4 =>
    diagram ch (left_legs ch (full_spin VL) s1' s2' s1 s2 s3 s4 s3 s4) P
               (right_legs ch (full_spin VR) s1' s2' s1 s2 s3 s4 s3 s4) e1' e2' e1 e2)).
(** exchange of the spin components *)
Definition swap_spin (V : Z -> Z -> cplx) : Z -> Z -> cplx := fun sp => V (1 - sp).

(** ** products without lines in between (single-boson exchange): legs are joined directly *)
Definition joined (x3 x4 x3' x4' : bool) : cplx :=
  if Bool.eqb x3 x3' && Bool.eqb x4 x4' then C1 else C0.

(** ** contour basis: branch indices ([false] forward, [true] backward); the change of basis to
    the Keldysh indices has coefficients +1 and, for index 1 on the backward branch, -1 (each leg
    carries a factor 1/sqrt 2) *)
Definition cbas (branch keldysh : bool) : Q := if branch then (if keldysh then 1 else -1) else 1.
Definition Gcontour (g : prop) (v : Q) (i j : bool) : cplx :=
  Cscale (1 # 2) (csum bits (fun a => csum bits (fun b => Cscale (cbas i a * cbas j b) (Gmat g v a b)))).
Definition lines_contour (ch : chan) (diff : bool) (g s : prop) (w v : Q) : bool -> bool -> bool -> bool -> cplx :=
  let G1 := Gcontour g (line1 ch w v) in let G2 := Gcontour g (line2 ch w v) in
  let S1 := Gcontour s (line1 ch w v) in let S2 := Gcontour s (line2 ch w v) in
  if diff then pair_of_lines_diff G1 G2 S1 S2 else pair_of_lines G1 G2.
(** vertex components in the contour basis, without the common factor (1/sqrt 2)^4 = 1/4 *)
Definition to_contour (V : Z -> cplx) (i1' i2' i1 i2 : bool) : cplx :=
  sum4 (fun a b c d => Cscale (cbas i1' a * cbas i2' b * cbas i1 c * cbas i2 d) (V (code4 a b c d))).
