(** What a result file should contain, independently of how it is written. *)
From Coq Require Import QArith String.
From Verif Require Import Prelude Hdf_Model.
Open Scope Z_scope.

Section Spec.
  Variable V : Type.
  Variable npoints : V -> V -> V -> V.
  Variables (k2 dbg k3 : bool) (kind : gslot -> gkind).
  (** parts of a state that exist for the chosen diagrammatic classes *)
  Definition stored (m : member) : Prop := match m with MK2 _ => k2 = true | MK2b _ => k2 = true /\ dbg = true | MK3 _ => k3 = true | _ => True end.
  Definition stored_grid (g : gslot) : Prop :=
    match g with GSigma | GK1 _ => True | GK2w _ | GK2v _ => k2 = true | GK2bw _ | GK2bv _ => k2 = true /\ dbg = true | GK3w _ | GK3v _ | GK3u _ => k3 = true end.
  Definition has_field (k : gkind) (f : gfield) : Prop :=
    match f with
    | FDelta | FU | FScale => k = Elias
    | FSection0 | FSection1 => k = Hybrid
    | FIntervals => k = Angular
    | _ => True
    end.
  (** the same data *)
  Definition same (s t : state V) : Prop :=
    (forall m, stored m -> mem V s m = mem V t m) /\ (forall g, stored_grid g -> forall f, has_field (kind g) f -> grid V s g f = grid V t g f).
  (** number of grid points as the constructor of the grids chooses it *)
  Definition constructed (s : state V) : Prop :=
    forall g, stored_grid g -> grid V s g FNumber = npoints (grid V s g FType) (grid V s g FClass) (grid V s g FPositive).

  (** a history of saving: layer, state, flag; oldest first *)
  Definition event := (Z * state V * bool)%type.
  Definition at_layer (it : Z) (e : event) : bool := fst (fst e) =? it.
  Definition latest (h : list event) (it : Z) : option (state V) := match rev (filter (at_layer it) h) with [] => None | e :: _ => Some (snd (fst e)) end.
  Definition any_converged (h : list event) : bool := existsb snd h.
  Definition last_layer (h : list event) : Z := match rev h with [] => -1 | e :: _ => fst (fst e) end.
End Spec.

Section Clients.
  Variable V : Type.
  Variable fill : V.
  Variable frequencies : (gfield -> V) -> V.
  Variable npoints : V -> V -> V -> V.
  Variables (k2 dbg k3 : bool) (kind : gslot -> gkind) (REG MAXCLASS GRID : Z) (mu bias : Q).
  (** a program that saves these states one after the other *)
  Fixpoint save_all (d : disk V) (name : string) (h : list (event V)) : disk V * option exc :=
    match h with
    | [] => (d, None)
    | (it, s, c) :: h =>
        match add_state V fill frequencies k2 dbg k3 kind REG MAXCLASS GRID mu bias d name it s c with
        | (d, None) => save_all d name h
        | r => r
        end
    end.
  (** iterates of the parquet solver, the i-th of which belongs to layer i mod 5 *)
  Fixpoint iterates (i : Z) (l : list (state V * bool)) : list (event V) := match l with [] => [] | (s, c) :: l => (i mod 5, s, c) :: iterates (i + 1) l end.
  (** layer it of the file can be read and holds s *)
  Definition holds (d : disk V) (name : string) (it : Z) (s : state V) : Prop :=
    forall junk, exists t, read_state V fill npoints k2 dbg k3 kind junk d name it = Val t /\ same V k2 dbg k3 kind s t.
  (** the file holds these states in layers 0, 1, .. and reports the last of them *)
  Definition shows (d : disk V) (name : string) (ls : list (state V)) (conv : bool) : Prop :=
    (forall j s, nth_error ls j = Some s -> holds d name (Z.of_nat j) s) /\ check_convergence V d name = Val (conv, Z.of_nat (length ls) - 1).
  (** the same program started again and again *)
  Definition session := (state V * (state V -> Z -> list (state V * bool * (V * V * V))))%type.
  Fixpoint sessions (d : disk V) (name : string) (c : config) (n : Z) (l : list (session * state V)) : disk V * option exc :=
    match l with
    | [] => (d, None)
    | ((ini, solve), junk) :: l =>
        match n_loop_flow V fill frequencies npoints k2 dbg k3 kind REG MAXCLASS GRID mu bias junk ini solve d name c n with
        | (d, None) => sessions d name c n l
        | r => r
        end
    end.
  Definition admissible (n : Z) (r : session) : Prop :=
    constructed V npoints k2 dbg k3 (fst r) /\
    (forall s i, 0 <= i < n -> i + Z.of_nat (length (snd r s i)) < n) /\ (forall s i x, In x (snd r s i) -> constructed V npoints k2 dbg k3 (fst (fst x))).
End Clients.
