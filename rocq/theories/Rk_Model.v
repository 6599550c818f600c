(** Runge-Kutta steps.
    Model of ODE_solvers/ODE_solvers.hpp:116-288. Doubles are rationals. A state is a family of numbers over an arbitrary index
    set [I] with component-wise addition and scaling (vec, State and plain numbers are instances). *)
From Verif Require Import Prelude.
From Coq Require Import QArith.
Open Scope Q_scope.

(** 120-157 butcher_tableau *)
Record tableau := { stages : nat; ta : list Q; tb_high : list Q; tb_low : list Q; tc : list Q; adaptive : bool }.
(** 132-141; array reads are modelled with default 0, [C37_wellformed] shows that all reads are inside the arrays *)
Definition get_a (T : tableau) (row col : nat) : Q :=
  if ((row =? 0) || (col =? stages T))%nat%bool then 0 else nth ((row - 1) * (stages T - 1) + col) (ta T) 0.
(** 143-151, 153-156 *)
Definition get_node (T : tableau) (stage : nat) : Q := if (stage =? 0)%nat then 0 else nth (stage - 1) (tc T) 0.
Definition get_b_high (T : tableau) (stage : nat) : Q := nth stage (tb_high T) 0.
Definition get_error_b (T : tableau) (stage : nat) : Q := nth stage (tb_high T) 0 - nth stage (tb_low T) 0.
(** 160-175 *)
Definition cash_carp : tableau := {|
  stages := 6;
  ta := [1#5; 0; 0; 0; 0;
         3#40; 9#40; 0; 0; 0;
         3#10; -9#10; 6#5; 0; 0;
         -11#54; 5#2; -70#27; 35#27; 0;
         1631#55296; 175#512; 575#13824; 44275#110592; 253#4096];
  tb_high := [37#378; 0; 250#621; 125#594; 0; 512#1771];
  tb_low := [2825#27648; 0; 18575#48384; 13525#55296; 277#14336; 1#4];
  tc := [1#5; 3#10; 3#5; 1; 7#8];
  adaptive := true |}.
(** 177-190 *)
Definition RK4basic : tableau := {|
  stages := 4;
  ta := [1#2; 0; 0;
         0; 1#2; 0;
         0; 0; 1];
  tb_high := [1#6; 1#3; 1#3; 1#6]; tb_low := [1#6; 1#3; 1#3; 1#6]; tc := [1#2; 1#2; 1]; adaptive := false |}.
(** 194-207 *)
Definition BogaSha : tableau := {|
  stages := 4;
  ta := [1#2; 0; 0;
         0; 3#4; 0;
         2#9; 1#3; 4#9];
  tb_high := [2#9; 1#3; 4#9; 0]; tb_low := [7#24; 1#4; 1#3; 1#8]; tc := [1#2; 3#4; 1]; adaptive := true |}.

Section Step.
Context {I : Type}.
Definition Y : Type := I -> Q.
Definition Yadd (x y : Y) : Y := fun i => x i + y i.
Definition Yscale (x : Y) (q : Q) : Y := fun i => x i * q.
(** the class FlowGrid: lambda_from_t and dlambda_dt *)
Variables lambda_from_t dlambda_dt : Q -> Q.
(** whether REPARAMETRIZE_FLOWGRID is defined (it is by default) *)
Variable reparametrize : bool.
Variable T : tableau.
Variable rhs : Y -> Q -> Y.
(** the step size in the variable of integration *)
Definition stepsize (t h : Q) : Q := if reparametrize then h else lambda_from_t (t + h) - lambda_from_t t.
Definition first_k (dydx : Y) (t : Q) : Y := if reparametrize then Yscale dydx (dlambda_dt t) else dydx.
(** 244-279 one pass of the loop over the stages; [k]: derivatives found so far *)
Definition stage_state (y : Y) (t h : Q) (k : list Y) (stage : nat) : Y :=
  fold_left (fun st col => Yadd st (Yscale (nth col k (fun _ => 0)) (stepsize t h * get_a T stage col))) (seq 0 stage) y.
Definition stage_k (y : Y) (t h : Q) (k : list Y) (stage : nat) : Y :=
  let t_stage := t + h * get_node T stage in
  let Lambda_stage := if reparametrize then lambda_from_t t_stage
                      else lambda_from_t t + (lambda_from_t (t + h) - lambda_from_t t) * get_node T stage in
  let d := rhs (stage_state y t h k stage) Lambda_stage in
  if reparametrize then Yscale d (dlambda_dt t_stage) else d.
Definition all_k (y dydx : Y) (t h : Q) : list Y :=
  fold_left (fun k stage => k ++ [stage_k y t h k stage]) (seq 1 (stages T - 1)) [first_k dydx t].
(** 281-285 *)
Definition rk_result (y dydx : Y) (t h : Q) : Y :=
  let k := all_k y dydx t h in
  fold_left (fun r s => Yadd r (Yscale (Yscale (nth s k (fun _ => 0)) (stepsize t h)) (get_b_high T s))) (seq 0 (stages T)) y.
Definition rk_error (y dydx : Y) (t h : Q) : Y :=
  let k := all_k y dydx t h in
  fold_left (fun r s => Yadd r (Yscale (Yscale (nth s k (fun _ => 0)) (stepsize t h)) (get_error_b T s))) (seq 1 (stages T - 1))
            (Yscale (Yscale (nth 0 k (fun _ => 0)) (stepsize t h)) (get_error_b T 0)).
End Step.
