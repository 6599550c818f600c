(** Bethe-Salpeter equation, parquet iteration of the vertex, post-processed susceptibilities, and the values of the bubbles they are made of.
    Model of perturbation_theory_and_parquet/parquet_solver.hpp:27-58, 389-458, 478-485, with bubble_function of Mlp_Model and the parts of a vertex that are
    inserted on the left and on the right of a bubble (vertex.hpp:1325-1570, bubble/integrand.hpp:496-545; no SBE decomposition, no static feedback,
    MAX_DIAG_CLASS 3).
    Simplified: the data of a class are an element of a type [A]; connecting two of them by a pair of propagators in channel r is an operation
    [prod Pi r] (integral, Keldysh and spin sums), and reading a vertex of channel r' in the parametrisation of channel r an operation [cross r' r].
    [mirror r]: reading K2' from K2 by symmetry, which is done unless DEBUG_SYMMETRIES is set. [lift q]: the bare vertex of value q. *)
From Coq Require Import QArith.
From Verif Require Import Prelude Mlp_Model.
Open Scope list_scope.
Open Scope Z_scope.

Section Bse.
  Variables (A P : Type).
  Variables (zero : A) (add sub : A -> A -> A) (half : A -> A).
  Variables (prod : P -> channel -> A -> A -> A) (cross : channel -> channel -> A -> A) (mirror : channel -> A -> A) (lift : Q -> A).
  Variable dbg : bool.
  Notation rvert := (rvert A). Notation vertex := (vertex A). Notation operand := (operand A).

  Definition get (v : vertex) (r : channel) : rvert := match r with Ca => va _ v | Cp => vp _ v | Ct => vt _ v | Cother => rzero A zero end.
  (** r_vertex.hpp:1430-1530: class K2' of [h1], or its mirror image in the second half [h2] *)
  Definition read_K2b (h1 h2 : vertex) (r : channel) : A := if dbg then K2b _ (get h1 r) else mirror r (K2 _ (get h2 r)).
  (** r_vertex.hpp:1392-1408: all classes of a channel *)
  Definition value (h1 h2 : vertex) (r : channel) : A := add (add (add (K1 _ (get h1 r)) (K2 _ (get h1 r))) (read_K2b h1 h2 r)) (K3 _ (get h1 r)).
  (** vertex.hpp:1265-1323: the other channels *)
  Definition gammaRb (h1 h2 : vertex) (r : channel) : A :=
    match r with
    | Ca => add (cross Cp Ca (value h1 h2 Cp)) (cross Ct Ca (value h1 h2 Ct))
    | Cp => add (cross Ca Cp (value h1 h2 Ca)) (cross Ct Cp (value h1 h2 Ct))
    | Ct => add (cross Ca Ct (value h1 h2 Ca)) (cross Cp Ct (value h1 h2 Cp))
    | Cother => zero
    end.
  (** vertex.hpp:1325-1570 with the template arguments of 905-930: the r-irreducible vertices have no part in channel r,
      of the non-symmetric ones only channel r is used *)
  Definition left_same (o : operand) (r : channel) : A :=
    match o with
    | Full _ v => add (irr _ v) (add (K1 _ (get v r)) (read_K2b v v r))
    | Irreducible _ v _ => irr _ v
    | DiffLeft _ h1 h2 _ | DiffRight _ h1 h2 _ => add (irr _ h1) (add (K1 _ (get h1 r)) (read_K2b h1 h2 r))
    end.
  Definition right_same (o : operand) (r : channel) : A :=
    match o with
    | Full _ v => add (irr _ v) (add (K1 _ (get v r)) (K2 _ (get v r)))
    | Irreducible _ v _ => irr _ v
    | DiffLeft _ h1 h2 _ | DiffRight _ h1 h2 _ => add (irr _ h1) (add (K1 _ (get h1 r)) (K2 _ (get h1 r)))
    end.
  Definition left_diff (o : operand) (r : channel) : A :=
    match o with
    | Full _ v => add (add (K2 _ (get v r)) (K3 _ (get v r))) (gammaRb v v r)
    | Irreducible _ v _ => gammaRb v v r
    | DiffLeft _ h1 h2 _ | DiffRight _ h1 h2 _ => add (K2 _ (get h1 r)) (K3 _ (get h1 r))
    end.
  Definition right_diff (o : operand) (r : channel) : A :=
    match o with
    | Full _ v => add (add (read_K2b v v r) (K3 _ (get v r))) (gammaRb v v r)
    | Irreducible _ v _ => gammaRb v v r
    | DiffLeft _ h1 h2 _ | DiffRight _ h1 h2 _ => add (read_K2b h1 h2 r) (K3 _ (get h1 r))
    end.
  (** bubble/integrand.hpp:496-545 *)
  Definition bub (Pi : P) (r : channel) (k : kclass) (v1 v2 : operand) : A :=
    let l := match k with k1 | k2b => left_same v1 r | k2 | k3 => left_diff v1 r end in
    let r' := match k with k3 | k2b => right_diff v2 r | k1 | k2 => right_same v2 r end in
    prod Pi r l r'.

  (** bubble_function for all classes, and the loops over the literal "apt" *)
  Definition bubble (target : vertex) (v1 v2 : operand) (Pi : P) (r : channel) : vertex := bubble_function A P bub 3 dbg target v1 v2 Pi r everything.
  Definition apt : list channel := [Ca; Cp; Ct; Cother].

  (** parquet_solver.hpp:27-51 *)
  Definition bse_left (v : vertex) (Pi : P) : vertex := fold_left (fun g r => bubble g (Irreducible _ v v) (Full _ v) Pi r) apt (vzero A zero).
  Definition bse_right (v : vertex) (Pi : P) : vertex := fold_left (fun g r => bubble g (Full _ v) (Irreducible _ v v) Pi r) apt (vzero A zero).
  Definition compute_BSE (v : vertex) (Pi : P) : vertex := vhalf A half (vadd A add (bse_left v Pi) (bse_right v Pi)).

  (** vertex.hpp initialize: sets the bare part *)
  Definition initialize (v : vertex) (q : Q) : vertex := {| irr := lift q; va := va _ v; vp := vp _ v; vt := vt _ v |}.
  (** 478-485; [keldysh]: KELDYSH_FORMALISM, [contour]: CONTOUR_BASIS *)
  Definition parquet_iteration_vertex (keldysh contour : bool) (U : Q) (v : vertex) (Pi : P) : vertex :=
    initialize (compute_BSE v Pi) (if keldysh && negb contour then - U / 2 else - U)%Q.

  (** 389-458: susceptibility of one channel *)
  Definition susceptibility (bare v : vertex) (Pi : P) (r : channel) : vertex :=
    let z := vzero A zero in
    let chi_0 := bubble z (Full _ bare) (Full _ bare) Pi r in
    let Gamma0_Gamma_half1 := bubble z (Full _ bare) (Full _ v) Pi r in
    let Gamma_Gamma0_half1 := bubble z (Full _ v) (Full _ bare) Pi r in
    let chi_L := bubble z (DiffLeft _ Gamma0_Gamma_half1 Gamma_Gamma0_half1 v) (Full _ bare) Pi r in
    let chi_R := bubble z (Full _ bare) (DiffRight _ Gamma_Gamma0_half1 Gamma0_Gamma_half1 v) Pi r in
    vadd A add chi_0 (vhalf A half (vadd A add chi_L chi_R)).
  Definition set_K1 (x : rvert) (k : A) : rvert := {| K1 := k; K2 := K2 _ x; K2b := K2b _ x; K3 := K3 _ x |}.
  Definition set_channel_K1 (v : vertex) (r : channel) (k : A) : vertex :=
    match r with
    | Ca => {| irr := irr _ v; va := set_K1 (va _ v) k; vp := vp _ v; vt := vt _ v |}
    | Cp => {| irr := irr _ v; va := va _ v; vp := set_K1 (vp _ v) k; vt := vt _ v |}
    | Ct => {| irr := irr _ v; va := va _ v; vp := vp _ v; vt := set_K1 (vt _ v) k |}
    | Cother => v
    end.
  Definition susceptibilities_postprocessing (contour : bool) (U : Q) (v : vertex) (Pi : P) (chi chi_diff : vertex) : vertex * vertex :=
    let bare := initialize (vzero A zero) (if negb contour then - U / 2 else - U)%Q in
    fold_left (fun '(chi, diff) r =>
        let tot := susceptibility bare v Pi r in
        let chi := set_channel_K1 chi r (K1 _ (get tot r)) in
        (chi, set_channel_K1 diff r (sub (K1 _ (get v r)) (K1 _ (get chi r))))) apt (chi, chi_diff).
End Bse.
