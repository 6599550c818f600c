(** What is expected of sequences of bubbles, of perturbation theory and of the multiloop equations, stated without the functions of the model
    (only its data types are used). *)
From Coq Require Import QArith.
From Verif Require Import Prelude Mlp_Model.
Open Scope list_scope.
Open Scope Z_scope.

Section Spec.
  Variable A : Type.
  Variables (zero : A) (add : A -> A -> A) (half : A -> A).
  (** one component of a vertex *)
  Definition part (v : vertex A) (r : channel) (k : kclass) : A :=
    let of x := match k with k1 => K1 _ x | k2 => K2 _ x | k2b => K2b _ x | k3 => K3 _ x end in
    match r with Ca => of (va _ v) | Cp => of (vp _ v) | Ct => of (vt _ v) | Cother => zero end.
  Definition tabulate (i : A) (f : channel -> kclass -> A) : vertex A :=
    let row r := {| K1 := f r k1; K2 := f r k2; K2b := f r k2b; K3 := f r k3 |} in
    {| irr := i; va := row Ca; vp := row Cp; vt := row Ct |}.
  (** the classes of an executable, and those a call asks for *)
  Definition exists_class (max_class : Z) (dbg : bool) (k : kclass) : Prop :=
    match k with k1 => True | k2 => 2 <= max_class | k2b => 2 <= max_class /\ dbg = true | k3 => 3 <= max_class end.
  Definition asked (tbc : bool * bool * bool) (k : kclass) : Prop :=
    match k with k1 => fst (fst tbc) = true | k2 | k2b => snd (fst tbc) = true | k3 => snd tbc = true end.

  (** *** sequences of calls *)
  Record call (P : Type) := { c_left : operand A; c_right : operand A; c_bubble : P; c_channel : channel; c_classes : bool * bool * bool }.
  Definition touches {P} (max_class : Z) (dbg : bool) (c : call P) (r : channel) (k : kclass) : Prop :=
    c_channel _ c = r /\ r <> Cother /\ asked (c_classes _ c) k /\ exists_class max_class dbg k.

  (** a call adds its value to the components it is asked to compute *)
  Definition accumulates {P} (max_class : Z) (dbg : bool) (value : call P -> kclass -> A) (exec : vertex A -> call P -> vertex A) : Prop :=
    forall v c r k, touches max_class dbg c r k -> part (exec v c) r k = add (part v r k) (value c k).

  (** *** the multiloop equations: for given bubbles, the contributions of every order.
      [B pi l r]: the sum over the channels of the bubble of l and r *)
  Variable P : Type.
  Variable bub : P -> channel -> kclass -> operand A -> operand A -> A.
  Variables (max_class : Z) (dbg : bool).
  Definition in_class (k : kclass) (x : A) : A :=
    match k with
    | k1 => x
    | k2 => if Z_le_dec 2 max_class then x else zero
    | k2b => if Z_le_dec 2 max_class then (if dbg then x else zero) else zero
    | k3 => if Z_le_dec 3 max_class then x else zero
    end.
  Definition bubbles (i : A) (Pi : P) (l r : operand A) : vertex A := tabulate i (fun c k => in_class k (bub Pi c k l r)).
  Definition plus (x y : vertex A) : vertex A := tabulate (add (irr _ x) (irr _ y)) (fun r k => add (part x r k) (part y r k)).
  (** central part: K2 from the insertion on the right, K2' (without symmetries) from that on the left, the others averaged *)
  Definition central (cr cl : vertex A) : vertex A :=
    tabulate (half (add (irr _ cr) (irr _ cl)))
      (fun r k => match k with
                  | k2 => part cr r k
                  | k2b => if dbg then part cl r k else half (add (part cr r k) (part cl r k))
                  | _ => half (add (part cr r k) (part cl r k))
                  end).
  Variables (Psi : vertex A) (pi : P) (reorder : vertex A -> vertex A -> vertex A * vertex A).
  (** left, right, central and total contribution of an order *)
  Record order := { o_left : vertex A; o_right : vertex A; o_central : vertex A; o_total : vertex A }.
  Definition vnull : vertex A := tabulate zero (fun _ _ => zero).
  (** orders 1, 2, …: [level dPi n] is order n + 1 *)
  Fixpoint level (dPi : P) (n : nat) : order :=
    match n with
    | O => let T := bubbles zero dPi (Full _ Psi) (Full _ Psi) in {| o_left := vnull; o_right := vnull; o_central := vnull; o_total := T |}
    | S n =>
        let o := level dPi n in
        let L := bubbles zero pi (Irreducible _ (o_total o) Psi) (Full _ Psi) in
        let R := bubbles zero pi (Full _ Psi) (Irreducible _ (o_total o) Psi) in
        let '(L', R') := if dbg then (L, R) else reorder L R in
        match n with
        | O => {| o_left := L'; o_right := R'; o_central := vnull; o_total := plus L R |}
        | S _ =>
            let C := central (bubbles zero pi (Full _ Psi) (DiffLeft _ (o_left o) (o_right o) Psi)) (bubbles zero pi (DiffRight _ (o_right o) (o_left o) Psi) (Full _ Psi)) in
            {| o_left := L'; o_right := R'; o_central := C; o_total := plus (plus L C) R |}
        end
    end.
  Definition contribution (dPi : P) (m : Z) : vertex A := o_total (level dPi (Z.to_nat (m - 1))).
  (** sums over the orders up to m *)
  Fixpoint vertex_to (dPi : P) (n : nat) : vertex A := match n with O => o_total (level dPi 0) | S n => plus (vertex_to dPi n) (o_total (level dPi (S n))) end.
  Definition vertex_up_to (dPi : P) (m : Z) : vertex A := vertex_to dPi (Z.to_nat (m - 1)).
  Fixpoint central_to (dPi : P) (n : nat) : vertex A := match n with O | S O => vnull | S n => plus (central_to dPi n) (o_central (level dPi (S n))) end.
  Definition central_up_to (dPi : P) (m : Z) : vertex A := central_to dPi (Z.to_nat (m - 1)).

  (** *** when to stop *)
  Variables (vnorm : vertex A -> fl) (tol_abs tol_rel : Q) (nloops : Z).
  Definition below (x : fl) (t : Q) : Prop := match x with Fin q => (q < t)%Q | _ => False end.
  Definition above (x : fl) (t : Q) : Prop := match x with Fin q => (t < q)%Q | PInf => True | NaN => False end.
  (** x / y is below t, for norms x and y *)
  Definition ratio_below (x y : fl) (t : Q) : Prop :=
    match x, y with Fin p, Fin q => (~ q == 0 /\ p / q < t)%Q | Fin _, PInf => (0 < t)%Q | _, _ => False end.
  Definition negligible (T total : vertex A) : Prop := below (vnorm T) tol_abs \/ ratio_below (vnorm T) (vnorm total) tol_rel.
  (** m is the order at which the vertex flow has to stop *)
  Definition last_order (dPi : P) (m : Z) : Prop :=
    1 <= m <= nloops /\
    (m = nloops \/ 3 <= m /\ negligible (contribution dPi m) (vertex_up_to dPi m)) /\
    (forall i, 3 <= i < m -> ~ negligible (contribution dPi i) (vertex_up_to dPi i)).
End Spec.

(** *** self-energy iterations for nloops >= 3: [reached n s h]: after n iterations, the derivative of the self-energy is s and the history h *)
Section Iterations.
  Variables (A P B : Type).
  Variables (badd bsub : B -> B -> B) (se1 : B) (corr : operand A -> B) (mix : list ((vertex A * B) * (vertex A * B)) -> B) (bnorm : B -> fl) (brel : B -> B -> fl).
  Variables (se_abs se_rel : Q).
  (** the order, vertex and central part that belong to a derivative of the self-energy *)
  Variable flow : B -> Z -> vertex A -> operand A -> Prop.
  Definition next (h : list ((vertex A * B) * (vertex A * B))) (s : B) (v : vertex A) (c : operand A) := h ++ [((v, badd se1 (corr c)), (v, s))].
  Inductive reached : Z -> B -> list ((vertex A * B) * (vertex A * B)) -> Prop :=
  | reached_start : reached 0 se1 []
  | reached_next n s h m v c : reached n s h -> flow s m v c ->
      above (bnorm (bsub (mix (next h s v c)) s)) se_abs -> above (brel (bsub (mix (next h s v c)) s) (mix (next h s v c))) se_rel ->
      reached (n + 1) (mix (next h s v c)) (next h s v c).
End Iterations.

(** *** what the right-hand side has to return *)
Section Answer.
  Variables (A : Type) (zero : A) (add : A -> A -> A) (half : A -> A) (P : Type) (bub : P -> channel -> kclass -> operand A -> operand A -> A) (max_class : Z) (dbg : bool).
  Variables (Psi : vertex A) (pi : P) (reorder : vertex A -> vertex A -> vertex A * vertex A) (vnorm : vertex A -> fl) (tol_abs tol_rel : Q) (nloops : Z).
  Variables (B : Type) (dpi : B -> P) (badd bsub : B -> B -> B) (se1 : B) (corr : operand A -> B) (mix : list ((vertex A * B) * (vertex A * B)) -> B).
  Variables (bnorm : B -> fl) (brel : B -> B -> fl) (se_abs se_rel : Q) (nmax : Z).
  (** vertex flow for the derivative s of the self-energy: stops at order m with vertex v and central part c *)
  Definition flow_of (s : B) (m : Z) (v : vertex A) (c : operand A) : Prop :=
    last_order A zero add half P bub max_class dbg Psi pi reorder vnorm tol_abs tol_rel nloops (dpi s) m /\
    v = vertex_up_to A zero add half P bub max_class dbg Psi pi reorder (dpi s) m /\
    c = Irreducible _ (central_up_to A zero add half P bub max_class dbg Psi pi reorder (dpi s) m) Psi.
  (** the vertex flow of the last iterate s, and the self-energy that follows from it *)
  Definition final (a : answer A B) : Prop :=
    exists n s h m v c, reached A B badd bsub se1 corr mix bnorm brel se_abs se_rel flow_of n s h /\ flow_of s m v c /\ a_vertex _ _ a = v /\ a_last _ _ a = m
      /\ (nloops < 3 -> n = 0 /\ a_iterations _ _ a = 0 /\ a_se _ _ a = s)
      /\ (3 <= nloops -> a_iterations _ _ a = n + 1 /\ (n = 0 \/ n < nmax) /\
          let s' := mix (next A B badd se1 corr h s v c) in
          a_se _ _ a = s' /\ (nmax <= n + 1 \/ ~ above (bnorm (bsub s' s)) se_abs \/ ~ above (brel (bsub s' s) s') se_rel)).
  (** stopping is justified: all iterations done, or the last change is at most one of the tolerances *)
  Definition at_most (x : fl) (t : Q) : Prop := match x with Fin q => (q <= t)%Q | _ => False end.
  Definition justified (a : answer A B) : Prop :=
    nmax <= a_iterations _ _ a \/ exists s, at_most (bnorm (bsub (a_se _ _ a) s)) se_abs \/ at_most (brel (bsub (a_se _ _ a) s) (a_se _ _ a)) se_rel.
End Answer.

(** ** returns within a finite depth of calls *)
Definition returns {X} (run : nat -> X -> bool) (x : X) : Prop := exists depth, run depth x = true.
