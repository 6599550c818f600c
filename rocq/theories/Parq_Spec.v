From Coq Require Import QArith.
From Verif Require Import Prelude Parq_Model.
Open Scope Q_scope.

(** a number not above the bound *)
Definition at_most (x : xnum) (b : Q) : Prop := match x with Fin q => q <= b | _ => False end.
Definition allowed_mixing (m : Q) : Prop := (1 # 100 <= m /\ m <= 1 # 2) \/ m == 1.
(** the state before the last iteration: the second to last layer written *)
Definition last_two {S} (l : list (layer S)) : option (S * S) :=
  match rev l with b :: a :: _ => Some (l_state a, l_state b) | _ => None end.
(** larger of the two relative changes of iteration k, from the layers written *)
Definition worse {S} (cv cs : S -> S -> xnum) (w : list (layer S)) (k : nat) (d : layer S) : xnum :=
  let x := l_state (nth (k - 1) w d) in let y := l_state (nth k w d) in xmax (cs x y) (cv x y).
(** mixing factor after iteration k: reduced after every fifth iteration unless the changes have not grown within the last five iterations *)
Definition reduced (m m' : Q) : Prop := m' == (if Qle_bool (1 # 100) ((6 # 10) * m) then (6 # 10) * m else 1 # 100).
Definition follows_rule {S} (next : Z -> Q -> S -> S) (cv cs : S -> S -> xnum) (w : list (layer S)) (k : nat) (d : layer S) : Prop :=
  let p := nth (k - 1) w d in let l := nth k w d in
  l_state l = next (Z.of_nat k) (l_mixing p) (l_state p) /\
  (if (k mod 5 =? 0)%nat && Qltb (1 # 100) (l_mixing p) && xlt (worse cv cs w (k - 4) d) (worse cv cs w k d) then reduced (l_mixing p) (l_mixing l) else l_mixing l = l_mixing p).
