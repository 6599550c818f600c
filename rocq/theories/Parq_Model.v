(** Iteration of the parquet equations.
    Model of perturbation_theory_and_parquet/parquet_solver.hpp:501-646. The right-hand side of the parquet equations together with
    the mixing (parquet_iteration, anderson_update) is a parameter acting on states; a state contains the history used for the
    mixing. Doubles are rational numbers, infinite, or not a number. Of the file, the layers written are recorded. *)
From Coq Require Import QArith.
From Verif Require Import Prelude.
Open Scope Q_scope.

(** results of divisions of norms *)
Inductive xnum := NaN | Inf | Fin (q : Q).
Definition Qltb (x y : Q) : bool := negb (Qle_bool y x).
(** x < y *)
Definition xlt (x y : xnum) : bool :=
  match x, y with
  | NaN, _ | _, NaN => false
  | Fin a, Fin b => Qltb a b
  | Fin _, Inf => true
  | Inf, _ => false
  end.
(** std::max(x, y): y if x < y, else x *)
Definition xmax (x y : xnum) : xnum := if xlt x y then y else x.

Definition mixing_minimum : Q := 1 # 100.
Definition trigger_adaptation : Z := 5.
Definition Nmax_history : nat := 5.

(** one layer written to the file: index, state, mixing factor, flag *)
Record layer (S : Type) := Layer { l_index : Z; l_state : S; l_mixing : Q; l_converged : bool }.
Arguments Layer {S}. Arguments l_index {S}. Arguments l_state {S}. Arguments l_mixing {S}. Arguments l_converged {S}.

Record run (S : Type) := Run { r_converged : bool; r_state : S; r_iterations : Z; r_mixing : Q; r_layers : list (layer S) }.
Arguments Run {S}. Arguments r_converged {S}. Arguments r_state {S}. Arguments r_iterations {S}. Arguments r_mixing {S}. Arguments r_layers {S}.

Section Solver.
  Variable S : Type.
  (** 591-605: iteration number, mixing factor, input state *)
  Variable next : Z -> Q -> S -> S.
  (** 607-611: relative change of the vertex and of the self-energy, from input and output *)
  Variable change_vertex change_selfenergy : S -> S -> xnum.
  Variable accuracy : Q.
  Variable Nmax : Z.

  (** 613-614 *)
  Definition push_history (h : list xnum) (x : xnum) : list xnum :=
    let h' := h ++ [x] in if (Nmax_history <? length h')%nat then tl h' else h'.
  (** 617-623 *)
  Definition adapt (iteration : Z) (mixing : Q) (h : list xnum) : Q :=
    if (iteration mod trigger_adaptation =? 0)%Z && Qltb mixing_minimum mixing && xlt (hd NaN h) (last h NaN)
    then (if Qltb ((6 # 10) * mixing) mixing_minimum then mixing_minimum else (6 # 10) * mixing) else mixing.
  (** 627 *)
  Definition is_converged (dv ds : xnum) : bool := negb (xlt (Fin accuracy) dv || xlt (Fin accuracy) ds).
  (** 562-644; [None]: out of fuel *)
  Fixpoint loop (fuel : nat) (iteration : Z) (mixing : Q) (h : list xnum) (state_in : S) (written : list (layer S)) : option (run S) :=
    match fuel with
    | O => None
    | Datatypes.S f =>
        let state_out := next iteration mixing state_in in
        let dv := change_vertex state_in state_out in
        let ds := change_selfenergy state_in state_out in
        let h' := push_history h (xmax ds dv) in
        let mixing' := adapt iteration mixing h' in
        let c := is_converged dv ds in
        let w := written ++ [Layer (iteration mod trigger_adaptation) state_out mixing' c] in
        if negb c && (iteration <? Nmax)%Z then loop f (iteration + 1) mixing' h' state_out w
        else Some (Run c state_out iteration mixing' w)
    end.

  (** 501-560: check of the mixing ratio (unless compiled out), loading of earlier results, first layer.
      [file]: convergence flag and last layer in the file ([None] if it cannot be opened); [read]: state in a layer *)
  Inductive result := AssertionFailed | NotReadable | Loaded (returned : bool) (s : S) | Ran (r : run S) | Endless.
  Definition iterate (fuel : nat) (mixing_ratio : Q) (s : S) : result :=
    match loop fuel 1 mixing_ratio [] s [Layer 0 s mixing_ratio false] with Some r => Ran r | None => Endless end.
  Definition parquet_solver (ndebug : bool) (overwrite use_last_state_anyway : bool) (file : option (bool * Z)) (read : Z -> option S)
      (mixing_ratio : Q) (fuel : nat) (state_in : S) : result :=
    if negb ndebug && negb ((Qle_bool mixing_minimum mixing_ratio && Qle_bool mixing_ratio (1 # 2)) || Qeq_bool mixing_ratio 1) then AssertionFailed
    else if overwrite then iterate fuel mixing_ratio state_in
    else
      let Lambda_it := match file with Some (_, i) => i | None => (-1)%Z end in
      let converged := match file with Some (c, _) => c | None => false end in
      if converged || (use_last_state_anyway && negb (Lambda_it =? 0)%Z)
      then match read Lambda_it with Some s => Loaded false s | None => NotReadable end
      else if (0 <=? Lambda_it)%Z
      then match read Lambda_it with Some s => iterate fuel mixing_ratio s | None => NotReadable end
      else iterate fuel mixing_ratio state_in.
End Solver.
Arguments AssertionFailed {S}. Arguments NotReadable {S}. Arguments Loaded {S}. Arguments Ran {S}. Arguments Endless {S}.
