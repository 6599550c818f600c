(** Accumulation of bubbles, perturbation theory and the multiloop right-hand side.
    Model of bubble/bubble_function.hpp:207-250, 556-602, 960-985, perturbation_theory_and_parquet/perturbation_theory.hpp and
    mfRG_flow/right_hand_sides.hpp:173-560, 605-856 (no SBE decomposition, SELF_ENERGY_FLOW_CORRECTIONS 1, Anderson acceleration, no static feedback).
    The data of one diagrammatic class of one channel are an element of a type [A]; what a bubble evaluates to is an arbitrary function of the bubble
    object, channel, class and the two operands (in particular the symmetries restored afterwards in the same buffer are part of it). *)
From Coq Require Import QArith.
From Verif Require Import Prelude.
Open Scope list_scope.
Open Scope Z_scope.

(** channel argument: a character; the loops over the literal "apt" also pass its terminating zero *)
Inductive channel := Ca | Cp | Ct | Cother.
Inductive kclass := k1 | k2 | k2b | k3.
(** results of double arithmetic as far as the control flow depends on them *)
Inductive fl := Fin (q : Q) | PInf | NaN.
Definition flt (x : fl) (q : Q) : bool := match x with Fin p => negb (Qle_bool q p) | _ => false end.
Definition fgt (x : fl) (q : Q) : bool := match x with Fin p => negb (Qle_bool p q) | PInf => true | NaN => false end.
(** quotient of two norms *)
Definition fdiv (x y : fl) : fl :=
  match x, y with
  | Fin p, Fin q => if Qeq_bool q 0 then (if Qeq_bool p 0 then NaN else PInf) else Fin (p / q)
  | PInf, Fin _ => PInf
  | Fin _, PInf => Fin 0
  | _, _ => NaN
  end.

Section Bubbles.
  Variable A : Type.
  Variables (zero : A) (add : A -> A -> A) (half : A -> A).
  Record rvert := { K1 : A; K2 : A; K2b : A; K3 : A }.
  Record vertex := { irr : A; va : rvert; vp : rvert; vt : rvert }.
  Definition rzero : rvert := {| K1 := zero; K2 := zero; K2b := zero; K3 := zero |}.
  Definition vzero : vertex := {| irr := zero; va := rzero; vp := rzero; vt := rzero |}.
  Definition radd (x y : rvert) : rvert := {| K1 := add (K1 x) (K1 y); K2 := add (K2 x) (K2 y); K2b := add (K2b x) (K2b y); K3 := add (K3 x) (K3 y) |}.
  (** vertex.hpp:359-365 *)
  Definition vadd (x y : vertex) : vertex := {| irr := add (irr x) (irr y); va := radd (va x) (va y); vp := radd (vp x) (vp y); vt := radd (vt x) (vt y) |}.
  Definition rhalf (x : rvert) : rvert := {| K1 := half (K1 x); K2 := half (K2 x); K2b := half (K2b x); K3 := half (K3 x) |}.
  Definition vhalf (x : vertex) : vertex := {| irr := half (irr x); va := rhalf (va x); vp := rhalf (vp x); vt := rhalf (vt x) |}.

  (** the kinds of vertices that are inserted into bubbles; [base]: the vertex the frequency grids and the irreducible part are taken from *)
  Inductive operand := Full (v : vertex) | Irreducible (v base : vertex) | DiffLeft (half1 half2 base : vertex) | DiffRight (half1 half2 base : vertex).

  Variable P : Type.
  Variable bub : P -> channel -> kclass -> operand -> operand -> A.
  (** MAX_DIAG_CLASS, DEBUG_SYMMETRIES *)
  Variables (max_class : Z) (dbg : bool).

  (** bubble_function.hpp:207-250 and 556-602: every class that is computed is set *)
  Definition computed (tbc : bool * bool * bool) (k : kclass) : bool :=
    let '(b1, b2, b3) := tbc in
    match k with k1 => b1 | k2 => (2 <=? max_class) && b2 | k2b => (2 <=? max_class) && b2 && dbg | k3 => (3 <=? max_class) && b3 end.
  Definition write_out (Pi : P) (r : channel) (v1 v2 : operand) (tbc : bool * bool * bool) (x : rvert) : rvert :=
    {| K1 := if computed tbc k1 then bub Pi r k1 v1 v2 else K1 x; K2 := if computed tbc k2 then bub Pi r k2 v1 v2 else K2 x;
       K2b := if computed tbc k2b then bub Pi r k2b v1 v2 else K2b x; K3 := if computed tbc k3 then bub Pi r k3 v1 v2 else K3 x |}.
  (** 960-985 *)
  Definition bubble_function (dgamma : vertex) (v1 v2 : operand) (Pi : P) (r : channel) (tbc : bool * bool * bool) : vertex :=
    match r with
    | Ca => {| irr := irr dgamma; va := write_out Pi r v1 v2 tbc (va dgamma); vp := vp dgamma; vt := vt dgamma |}
    | Cp => {| irr := irr dgamma; va := va dgamma; vp := write_out Pi r v1 v2 tbc (vp dgamma); vt := vt dgamma |}
    | Ct => {| irr := irr dgamma; va := va dgamma; vp := vp dgamma; vt := write_out Pi r v1 v2 tbc (vt dgamma) |}
    | Cother => dgamma
    end.
  Definition everything : bool * bool * bool := (true, true, true).
  Definition all_channels (dgamma : vertex) (v1 v2 : operand) (Pi : P) : vertex :=
    fold_left (fun g r => bubble_function g v1 v2 Pi r everything) [Ca; Cp; Ct; Cother] dgamma.

  (** ** perturbation theory *)
  (** perturbation_theory.hpp:33-47 *)
  Definition vertexInSOPT (target bare : vertex) (Pi : P) : vertex :=
    fold_left (fun g r => bubble_function g (Full bare) (Full bare) Pi r (true, false, false)) [Ca; Cp; Ct] target.
  (** 74-108; [initialize(0.)] sets the bare interaction, which is zero already *)
  Definition bubblevertex (bare : vertex) (Pi : P) (r : channel) : vertex := bubble_function vzero (Full bare) (Full bare) Pi r everything.
  Definition calls (target : vertex) (Pi : P) (l : list (vertex * vertex * channel)) : vertex :=
    fold_left (fun g c => let '(v1, v2, r) := c in bubble_function g (Full v1) (Full v2) Pi r everything) l target.
  Definition topt_calls (bare sopt : vertex) (Pi : P) : list (vertex * vertex * channel) :=
    let ba := bubblevertex bare Pi Ca in let bp := bubblevertex bare Pi Cp in let bt := bubblevertex bare Pi Ct in
    if dbg then
      [(ba, bare, Ca); (bp, bare, Cp); (bt, bare, Ct); (vadd bp bt, bare, Ca); (vadd ba bt, bare, Cp); (vadd ba bp, bare, Ct);
       (bare, vadd bp bt, Ca); (bare, vadd ba bt, Cp); (bare, vadd ba bp, Ct)]
    else [(sopt, bare, Ct); (bp, bare, Ca); (ba, bare, Cp)].
  Definition vertexInTOPT (target bare sopt : vertex) (Pi : P) : vertex := calls target Pi (topt_calls bare sopt Pi).
  (** 111-137 *)
  Definition fopt_calls (bare : vertex) (Pi : P) : list (vertex * vertex * channel) :=
    let ba := bubblevertex bare Pi Ca in let bp := bubblevertex bare Pi Cp in let bt := bubblevertex bare Pi Ct in
    (if dbg then [(vadd bp bt, vadd bp bt, Ca); (vadd ba bt, vadd ba bt, Cp)] else [(bp, bp, Ca); (ba, ba, Cp)]) ++ [(vadd ba bp, vadd ba bp, Ct)].
  Definition vertexInFOPT (target bare : vertex) (Pi : P) : vertex := calls target Pi (fopt_calls bare Pi).
  (** 139-160, 195-218, 221-255: the vertices; [bare]: vertex of the bare state *)
  Definition sopt_vertex (target bare : vertex) (Pi : P) : vertex := vertexInSOPT target bare Pi.
  Definition topt_vertex (bare : vertex) (Pi : P) : vertex :=
    let sopt := sopt_vertex vzero bare Pi in vertexInTOPT (vadd sopt bare) bare sopt Pi.
  Definition fopt_vertex (bare : vertex) (Pi : P) : vertex := vertexInFOPT (topt_vertex bare Pi) bare Pi.

  (** ** multiloop right-hand side *)
  Variable B : Type.
  Variables (badd bsub : B -> B -> B).
  (** vertex of the state, undifferentiated bubble, differentiated bubble for a given derivative of the self-energy, one-loop derivative of the self-energy *)
  Variables (Psi : vertex) (pi : P) (dpi : B -> P) (se1 : B).
  (** self-energy correction of a central part, Anderson update from the history of (new, old) states, norms, deviation *)
  Variables (corr : operand -> B) (mix : list ((vertex * B) * (vertex * B)) -> B) (vnorm : vertex -> fl) (bnorm : B -> fl) (brel : B -> B -> fl).
  (** reorder_due2antisymmetry *)
  Variable reorder : vertex -> vertex -> vertex * vertex.
  (** tolerances and maximal number of iterations; nloops_max *)
  Variables (tol_abs tol_rel se_abs se_rel : Q) (nmax nloops : Z).

  (** right_hand_sides.hpp:605-638 *)
  Definition vertexOneLoopFlow (target : vertex) (dPi : P) : vertex := all_channels target (Full Psi) (Full Psi) dPi.
  (** 649-700 *)
  Definition dGammaL (d : operand) : vertex := all_channels vzero d (Full Psi) pi.
  Definition dGammaR (d : operand) : vertex := all_channels vzero (Full Psi) d pi.
  (** 770-828 *)
  Definition dGammaC_right (d : operand) : vertex := all_channels vzero (Full Psi) d pi.
  Definition dGammaC_left (d : operand) : vertex := all_channels vzero d (Full Psi) pi.
  (** 383-397 *)
  Definition set_K2 (x y : rvert) : rvert := {| K1 := K1 x; K2 := K2 y; K2b := K2b x; K3 := K3 x |}.
  Definition set_K2b (x y : rvert) : rvert := {| K1 := K1 x; K2 := K2 x; K2b := K2b y; K3 := K3 x |}.
  Definition symmetrise (cr cl : vertex) : vertex :=
    let cl := {| irr := irr cl; va := set_K2 (va cl) (va cr); vp := set_K2 (vp cl) (vp cr); vt := set_K2 (vt cl) (vt cr) |} in
    let cr := if dbg then {| irr := irr cr; va := set_K2b (va cr) (va cl); vp := set_K2b (vp cr) (vp cl); vt := set_K2b (vt cr) (vt cl) |} else cr in
    vhalf (vadd cr cl).
  Definition reordered (l r : vertex) : vertex * vertex := if dbg then (l, r) else reorder l r.
  (** 431-435 *)
  Definition small (T total : vertex) : bool := flt (vnorm T) tol_abs || flt (fdiv (vnorm T) (vnorm total)) tol_rel.
  (** 325-437: orders [i], …, [i + n - 1], unless a contribution is small; result: vertex, central part and the last order *)
  Fixpoint orders (n : nat) (i : Z) (L R T central total : vertex) : vertex * vertex * Z :=
    match n with
    | O => (total, central, i - 1)
    | S n =>
        let cr := dGammaC_right (DiffLeft L R Psi) in
        let cl := dGammaC_left (DiffRight R L Psi) in
        let C := symmetrise cr cl in
        let L := dGammaL (Irreducible T Psi) in
        let R := dGammaR (Irreducible T Psi) in
        let T := vadd (vadd L C) R in
        let total := vadd total T in
        let '(L, R) := reordered L R in
        let central := vadd central C in
        if small T total then (total, central, i) else orders n (i + 1) L R T central total
    end.
  (** 222-437: one evaluation of the vertex flow; [target]: the vertex left by the previous one *)
  Definition vertex_flow (target : vertex) (dS : B) : vertex * vertex * Z :=
    let total := vertexOneLoopFlow target (dpi dS) in
    if nloops <? 2 then (total, vzero, 1)
    else
      let L := dGammaL (Irreducible total Psi) in
      let R := dGammaR (Irreducible total Psi) in
      let T := vadd L R in
      let total := vadd total T in
      let '(L, R) := reordered L R in
      orders (Z.to_nat (nloops - 2)) 3 L R T vzero total.
  (** 220-541: [None]: out of fuel. [iterations]: self-energy iterations, [last]: orders of the last evaluation *)
  Record answer := { a_vertex : vertex; a_se : B; a_iterations : Z; a_last : Z }.
  Fixpoint iterate (fuel : nat) (counter : Z) (target : vertex) (dS : B) (hist : list ((vertex * B) * (vertex * B))) : option answer :=
    match fuel with
    | O => None
    | S fuel =>
        let '(total, central, m) := vertex_flow target dS in
        if nloops <? 3 then Some {| a_vertex := total; a_se := dS; a_iterations := counter; a_last := m |}
        else
          let new := badd se1 (corr (Irreducible central Psi)) in
          let hist := hist ++ [((total, new), (total, dS))] in
          let dS' := mix hist in
          let err := bsub dS' dS in
          let counter := counter + 1 in
          if (counter <? nmax) && fgt (bnorm err) se_abs && fgt (brel err dS') se_rel then iterate fuel counter total dS' hist
          else Some {| a_vertex := total; a_se := dS'; a_iterations := counter; a_last := m |}
    end.
  (** 173-560; [None]: failed assertion *)
  Definition rhs_n_loop_flow : option answer := if nloops <? 1 then None else iterate (S (Z.to_nat nmax)) 0 vzero se1 [].
End Bubbles.

(** ** overloads of sopt_state, perturbation_theory.hpp:170-193: the second one calls an overload with the same arguments, that is itself *)
Inductive overload := WithFlag | WithLambda.
Definition sopt_state_calls (o : overload) : option overload := match o with WithFlag => None | WithLambda => Some WithLambda end.
(** [true]: returned within the given depth of the stack *)
Fixpoint sopt_state (depth : nat) (o : overload) : bool :=
  match depth with
  | O => false
  | S depth => match sopt_state_calls o with None => true | Some o' => sopt_state depth o' end
  end.
