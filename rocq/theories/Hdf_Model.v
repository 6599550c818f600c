(** Result files. Model of utilities/hdf5_routines.hpp:193-345, 452-520, 522-720, 838-888, utilities/hdf5_routines.c++:59-231 and 392-421,
    mfRG_flow/right_hand_sides.hpp:134-159 (mfRG_stats), ODE_solvers.hpp:31-52 (saving after a step) and mfRG_flow/flow.c++:3-30, 58-61, 78-90, 103, 118-156.
    A file consists of groups, data sets with one value per Lambda layer, and scalar attributes; layers that were never written hold the fill value.
    The values themselves (vectors and multi-arrays, whose shapes are fixed at compile time) are elements of an arbitrary type [V].
    An exception leaves everything written so far in the file. Only the root process of MPI is modelled (all writers are guarded by rank 0). *)
From Coq Require Import QArith String.
From Verif Require Import Prelude.
Open Scope string_scope.
Open Scope list_scope.
Open Scope Z_scope.

Inductive chan := Ca | Cp | Ct.
(** data of a state, and its frequency grids (first, second and third argument w, v, v') *)
Inductive member := MLambda | MSigma | MHartree | MIrred | MK1 (c : chan) | MK2 (c : chan) | MK2b (c : chan) | MK3 (c : chan).
Inductive gslot := GSigma | GK1 (c : chan) | GK2w (c : chan) | GK2v (c : chan) | GK2bw (c : chan) | GK2bv (c : chan) | GK3w (c : chan) | GK3v (c : chan) | GK3u (c : chan).
(** parameters of a frequency grid *)
Inductive gfield := FType | FClass | FPositive | FNumber | FUpper | FLower | FDelta | FU | FScale | FSection0 | FSection1 | FIntervals.
Inductive gkind := Elias | Hybrid | Angular.
(** what is stored in a data set *)
Inductive proj := PM (m : member) | PF (g : gslot) | PG (g : gslot) (f : gfield).
Scheme Equality for chan.
Scheme Equality for member.
Scheme Equality for gslot.
Scheme Equality for gfield.
Scheme Equality for proj.
Inductive gid := Root | Params | Freq | Sub (s : string) | Stats.
Definition gid_beq (a b : gid) : bool :=
  match a, b with Root, Root | Params, Params | Freq, Freq | Stats, Stats => true | Sub s, Sub t => String.eqb s t | _, _ => false end.
(** exceptions of the HDF5 library and failed assertions *)
Inductive exc := FileI | GroupI | AttrI | DataI | Assert.
Inductive res (A : Type) := Val (a : A) | Exn (e : exc).
Arguments Val {A}. Arguments Exn {A}.
Definition rbind {A B} (x : res A) (k : A -> res B) : res B := match x with Val a => k a | Exn e => Exn e end.
Notation "x <~ e ;; k" := (rbind e (fun x => k)) (at level 61, e at next level, right associativity).

(** data_structures.hpp:627-638; None: not initialised *)
Record config := { nODE : option Z; eps_abs : option Q; eps_rel : option Q; cU : Q; cT : Q; cGamma : Q; ceps : Q; save : bool; nloops : Z; nodes : Z }.
Definition fresh_config : config :=
  {| nODE := None; eps_abs := None; eps_rel := None; cU := 1; cT := 1; cGamma := 1; ceps := - (1 # 2); save := false; nloops := 1; nodes := 1 |}.
Inductive attr := AInt (z : option Z) | ADbl (q : Q) | ABool (b : bool).
(** hdf5_routines.hpp:479-487: the bytes of the stored type are copied to the variable; an integer leaves half of a double unchanged *)
Definition into_int (a : attr) : option Z := match a with AInt z => z | _ => None end.
Definition into_double (a : attr) : option Q := match a with ADbl q => Some q | _ => None end.

Section Store.
  Variable V : Type.
  Variable fill : V.
  (** get_all_frequencies of a grid, and the number of points chosen by the constructor of a grid from type, class and sign *)
  Variable frequencies : (gfield -> V) -> V.
  Variable npoints : V -> V -> V -> V.
  (** compile-time: MAX_DIAG_CLASS>1, DEBUG_SYMMETRIES, MAX_DIAG_CLASS>2, types of the grids, values of the global parameters *)
  Variables (k2 dbg k3 : bool) (kind : gslot -> gkind) (REG MAXCLASS GRID : Z) (mu bias : Q).

  Record state := { mem : member -> V; grid : gslot -> gfield -> V; conf : config }.
  Record file := { dsets : gid -> string -> option (Z * (Z -> V)); grp : gid -> bool; attrs : gid -> string -> option attr }.
  Definition empty_file : file := {| dsets := fun _ _ => None; grp := fun g => gid_beq g Root; attrs := fun _ _ => None |}.
  Definition disk := string -> option file.
  Definition put (d : disk) (name : string) (f : file) : disk := fun x => if String.eqb x name then Some f else d x.

  (** ** elementary operations *)
  Inductive op := OLayer (g : gid) (name : string) (v : V) (it n : Z) (ex : bool) | OAttr (g : gid) (name : string) (a : attr) (ex : bool) | OCreate (g : gid) | OOpen (g : gid).
  Definition missing (g : gid) : exc := match g with Root => FileI | _ => GroupI end.
  Definition parent (g : gid) : gid := match g with Sub _ => Freq | _ => Root end.
  Definition set_layer (f : file) (g : gid) (name : string) (n : Z) (l : Z -> V) : file :=
    {| dsets := fun g' x => if gid_beq g' g && String.eqb x name then Some (n, l) else dsets f g' x; grp := grp f; attrs := attrs f |}.
  Definition upd (l : Z -> V) (it : Z) (v : V) : Z -> V := fun i => if i =? it then v else l i.
  Definition set_attr (f : file) (g : gid) (name : string) (a : attr) : file :=
    {| dsets := dsets f; grp := grp f; attrs := fun g' x => if gid_beq g' g && String.eqb x name then Some a else attrs f g' x |}.
  Definition add_group (f : file) (g : gid) : file := {| dsets := dsets f; grp := fun x => gid_beq x g || grp f x; attrs := attrs f |}.
  Definition step (o : op) (f : file) : res file :=
    match o with
    | OLayer g name v it n ex => (* hdf5_routines.hpp:193-238 *)
        if (it <? 0) || (n <=? it) then Exn Assert
        else if ex then match dsets f g name with
                        | None => Exn (missing g)
                        | Some (m, l) => if m <=? it then Exn DataI else Val (set_layer f g name m (upd l it v))
                        end
        else match dsets f g name with
             | Some _ => Exn (missing g)
             | None => Val (set_layer f g name n (upd (fun _ => fill) it v))
             end
    | OAttr g name a ex => (* 346-400 *)
        match attrs f g name, ex with
        | None, false | Some _, true => Val (set_attr f g name a)
        | _, _ => Exn AttrI
        end
    | OCreate g => if grp f g then Exn (missing (parent g)) else Val (add_group f g)
    | OOpen g => if grp f g then Val f else Exn (missing (parent g))
    end.
  Fixpoint run (l : list op) (f : file) : file * option exc :=
    match l with
    | [] => (f, None)
    | o :: l => match step o f with Val f => run l f | Exn e => (f, Some e) end
    end.

  (** ** what is stored under which name *)
  Definition on (b : bool) {A} (l : list A) : list A := if b then l else [].
  (** 637-688 *)
  Definition root_table : list (string * proj) :=
    [("lambdas", PM MLambda); ("selflist", PM MSigma); ("hartree", PM MHartree); ("irred", PM MIrred);
     ("K1_a", PM (MK1 Ca)); ("K1_p", PM (MK1 Cp)); ("K1_t", PM (MK1 Ct));
     ("ffreqs", PF GSigma); ("bfreqs_a", PF (GK1 Ca)); ("bfreqs_p", PF (GK1 Cp)); ("bfreqs_t", PF (GK1 Ct))]
    ++ on k2 ([("K2_a", PM (MK2 Ca)); ("K2_p", PM (MK2 Cp)); ("K2_t", PM (MK2 Ct));
               ("bfreqs2_a", PF (GK2w Ca)); ("bfreqs2_p", PF (GK2w Cp)); ("bfreqs2_t", PF (GK2w Ct));
               ("ffreqs2_a", PF (GK2v Ca)); ("ffreqs2_p", PF (GK2v Cp)); ("ffreqs2_t", PF (GK2v Ct))]
              ++ on dbg [("K2b_a", PM (MK2b Ca)); ("K2b_p", PM (MK2b Cp)); ("K2b_t", PM (MK2b Ct));
                         ("bfreqs2b_a", PF (GK2bw Ca)); ("bfreqs2b_p", PF (GK2bw Cp)); ("bfreqs2b_t", PF (GK2bw Ct));
                         ("ffreqs2b_a", PF (GK2bv Ca)); ("ffreqs2b_p", PF (GK2bv Cp)); ("ffreqs2b_t", PF (GK2bv Ct))])
    ++ on k3 [("K3_a", PM (MK3 Ca)); ("K3_p", PM (MK3 Cp)); ("K3_t", PM (MK3 Ct));
              ("bfreqs3_a", PF (GK3w Ca)); ("bfreqs3_p", PF (GK3w Cp)); ("bfreqs3_t", PF (GK3w Ct));
              ("ffreqs3_a", PF (GK3v Ca)); ("ffreqs3_p", PF (GK3v Cp)); ("ffreqs3_t", PF (GK3v Ct));
              ("ffreqs3_a2", PF (GK3u Ca)); ("ffreqs3_p2", PF (GK3u Cp)); ("ffreqs3_t2", PF (GK3u Ct))].
  (** 732-790: all groups are created whatever is stored in them *)
  Definition groups : list string :=
    ["ffreqs"; "bfreqs_a"; "bfreqs_p"; "bfreqs_t"; "bfreqs2_a"; "bfreqs2_p"; "bfreqs2_t"; "bfreqs2b_a"; "bfreqs2b_p"; "bfreqs2b_t"; "bfreqs3_a"; "bfreqs3_p"; "bfreqs3_t";
     "ffreqs2_a"; "ffreqs2_p"; "ffreqs2_t"; "ffreqs2b_a"; "ffreqs2b_p"; "ffreqs2b_t"; "ffreqs3_a"; "ffreqs3_p"; "ffreqs3_t"; "ffreqs3_a2"; "ffreqs3_p2"; "ffreqs3_t2"].
  (** 792-825 *)
  Definition grid_table : list (string * gslot) :=
    [("ffreqs", GSigma); ("bfreqs_a", GK1 Ca); ("bfreqs_p", GK1 Cp); ("bfreqs_t", GK1 Ct)]
    ++ on k2 ([("bfreqs2_a", GK2w Ca); ("bfreqs2_p", GK2w Cp); ("bfreqs2_t", GK2w Ct); ("ffreqs2_a", GK2v Ca); ("ffreqs2_p", GK2v Cp); ("ffreqs2_t", GK2v Ct)]
              ++ on dbg [("bfreqs2b_a", GK2bw Ca); ("bfreqs2b_p", GK2bw Cp); ("bfreqs2b_t", GK2bw Ct); ("ffreqs2b_a", GK2bv Ca); ("ffreqs2b_p", GK2bv Cp); ("ffreqs2b_t", GK2bv Ct)])
    ++ on k3 [("bfreqs3_a", GK3w Ca); ("bfreqs3_p", GK3w Cp); ("bfreqs3_t", GK3w Ct); ("ffreqs3_a", GK3v Ca); ("ffreqs3_p", GK3v Cp); ("ffreqs3_t", GK3v Ct);
              ("ffreqs3_a2", GK3u Ca); ("ffreqs3_p2", GK3u Cp); ("ffreqs3_t2", GK3u Ct)].
  (** 522-553 *)
  Definition field_table (k : gkind) : list (string * gfield) :=
    [("type", FType); ("diag_class", FClass); ("purely_positive", FPositive); ("number_of_gridpoints", FNumber); ("w_upper", FUpper); ("w_lower", FLower)]
    ++ match k with
       | Elias => [("Delta_factor", FDelta); ("U_factor", FU); ("W_scale", FScale)]
       | Hybrid => [("pos_section_boundaries0", FSection0); ("pos_section_boundaries1", FSection1)]
       | Angular => [("number_of_intervals", FIntervals)]
       end.
  Definition value (s : state) (p : proj) : V := match p with PM m => mem s m | PF g => frequencies (grid s g) | PG g f => grid s g f end.
  Definition root_entries : list (gid * string * proj) := map (fun e => (Root, fst e, snd e)) root_table.
  Definition freq_entries : list (gid * string * proj) :=
    flat_map (fun e => map (fun q => (Sub (fst e), fst q, PG (snd e) (snd q))) (field_table (kind (snd e)))) grid_table.
  Definition layer_ops (es : list (gid * string * proj)) (s : state) (it n : Z) (ex : bool) : list op :=
    map (fun e => OLayer (fst (fst e)) (snd (fst e)) (value s (snd e)) it n ex) es.
  (** 686-699 *)
  Definition param_ops (s : state) (conv : bool) : list op :=
    OCreate Params :: map (fun e => OAttr Params (fst e) (snd e) false)
      [("REG", AInt (Some REG)); ("nODE", AInt (nODE (conf s))); ("Gamma", ADbl (cGamma (conf s))); ("MAX_DIAG_CLASS", AInt (Some MAXCLASS));
       ("N_LOOPS", AInt (Some (nloops (conf s)))); ("T", ADbl (cT (conf s))); ("mu", ADbl mu); ("U", ADbl (cU (conf s))); ("epsilon", ADbl (ceps (conf s)));
       ("V", ADbl bias); ("GRID", AInt (Some GRID)); ("is_converged", ABool conv)].
  (** 614-830 after opening the file: [keep]: mode "rw", [ex]: the data sets exist already *)
  Definition write_ops (s : state) (it n : Z) (keep ex conv : bool) : list op :=
    layer_ops root_entries s it n ex
    ++ (if ex then [] else param_ops s conv)
    ++ [OOpen Params; OAttr Params "last_Lambda_it" (AInt (Some it)) ex]
    ++ (if conv then [OAttr Params "is_converged" (ABool conv) ex] else [])
    ++ map (fun g => if keep then OOpen g else OCreate g) (Freq :: map Sub groups)
    ++ layer_ops freq_entries s it n ex.
  Definition write_layer (d : disk) (name : string) (s : state) (it n : Z) (keep conv : bool) : disk * option exc :=
    let '(f, ex) := if keep then match d name with Some f => (f, true) | None => (empty_file, false) end else (empty_file, false) in
    let '(f, e) := run (write_ops s it n keep ex conv) f in (put d name f, e).
  (** 838-853; 864-888 *)
  Definition write_state (d : disk) (name : string) (n : Z) (s : state) (conv : bool) : disk * option exc := write_layer d name s 0 n false conv.
  Definition add_state (d : disk) (name : string) (it : Z) (s : state) (conv : bool) : disk * option exc :=
    match d name with
    | None => (d, Some FileI)
    | Some f => match dsets f Root "lambdas" with
                | None => (d, Some FileI)
                | Some (n, _) => if (0 <=? it) && (it <? n) then write_layer d name s it n true conv else (d, None)
                end
    end.

  (** ** reading *)
  (** 285-340 *)
  Definition rd (f : file) (g : gid) (name : string) (it : Z) : res V :=
    match dsets f g name with
    | None => Exn (missing g)
    | Some (n, l) => if (it <? 0) || (n <=? it) then Exn Assert else Val (l it)
    end.
  Definition rd_attr (f : file) (g : gid) (name : string) : res attr := match attrs f g name with Some a => Val a | None => Exn AttrI end.
  Definition open_group (f : file) (g : gid) : res unit := if grp f g then Val tt else Exn (missing (parent g)).
  Fixpoint open_all (f : file) (l : list gid) : res unit := match l with [] => Val tt | g :: l => _ <~ open_group f g ;; open_all f l end.
  (** hdf5_routines.c++:392-421 *)
  Definition read_config (f : file) : res config :=
    _ <~ open_group f Params ;;
    _ <~ rd_attr f Params "REG" ;; nO <~ rd_attr f Params "nODE" ;; G <~ rd_attr f Params "Gamma" ;; _ <~ rd_attr f Params "MAX_DIAG_CLASS" ;;
    nl <~ rd_attr f Params "N_LOOPS" ;; T <~ rd_attr f Params "T" ;; _ <~ rd_attr f Params "mu" ;; U <~ rd_attr f Params "U" ;; ep <~ rd_attr f Params "epsilon" ;;
    _ <~ rd_attr f Params "V" ;;
    match into_int nl, into_double U, into_double G, into_double T, into_double ep with
    | Some nl, Some U, Some G, Some T, Some ep =>
        Val {| nODE := match into_double nO with Some q => Some (Qnum q / Z.pos (Qden q)) | None => None end;
               eps_abs := eps_abs fresh_config; eps_rel := eps_rel fresh_config; cU := U; cT := T; cGamma := G; ceps := ep;
               save := save fresh_config; nloops := nl; nodes := nodes fresh_config |}
    | _, _, _, _, _ => Exn DataI
    end.
  Definition set_mem (s : state) (m : member) (v : V) : state := {| mem := fun x => if member_beq x m then v else mem s x; grid := grid s; conf := conf s |}.
  Definition set_grid (s : state) (g : gslot) (v : gfield -> V) : state := {| mem := mem s; grid := fun x => if gslot_beq x g then v else grid s x; conf := conf s |}.
  (** hdf5_routines.c++:67-88 *)
  Definition read_table : list (string * member) :=
    [("selflist", MSigma); ("hartree", MHartree); ("irred", MIrred); ("K1_a", MK1 Ca); ("K1_p", MK1 Cp); ("K1_t", MK1 Ct)]
    ++ on k2 ([("K2_a", MK2 Ca); ("K2_p", MK2 Cp); ("K2_t", MK2 Ct)] ++ on dbg [("K2b_a", MK2b Ca); ("K2b_p", MK2b Cp); ("K2b_t", MK2b Ct)])
    ++ on k3 [("K3_a", MK3 Ca); ("K3_p", MK3 Cp); ("K3_t", MK3 Ct)].
  (** hdf5_routines.c++:117-149 *)
  Definition read_grids : list (string * gslot) :=
    [("ffreqs", GSigma); ("bfreqs_a", GK1 Ca); ("bfreqs_p", GK1 Cp); ("bfreqs_t", GK1 Ct)]
    ++ on k2 ([("bfreqs2_a", GK2w Ca); ("bfreqs2_p", GK2w Cp); ("bfreqs2_t", GK2w Ct); ("ffreqs2_a", GK2v Ca); ("ffreqs2_p", GK2v Cp); ("ffreqs2_t", GK2v Ct)]
              ++ on dbg [("bfreqs2b_a", GK2bw Ca); ("bfreqs2b_p", GK2bw Cp); ("bfreqs2b_t", GK2bw Ct); ("ffreqs2b_a", GK2bv Ca); ("ffreqs2b_p", GK2bv Cp); ("ffreqs2b_t", GK2bv Ct)])
    ++ on k3 [("bfreqs3_a", GK3w Ca); ("bfreqs3_p", GK3w Cp); ("bfreqs3_t", GK3w Ct); ("ffreqs3_a", GK3v Ca); ("ffreqs3_p", GK3v Cp); ("ffreqs3_t", GK3v Ct);
              ("ffreqs3_a2", GK3u Ca); ("ffreqs3_p2", GK3u Cp); ("ffreqs3_t2", GK3u Ct)].
  (** hdf5_routines.hpp:556-606: the parameters that are set on the newly constructed grid; everything else comes from its constructor *)
  Definition read_fields (k : gkind) : list (string * gfield) :=
    [("type", FType); ("diag_class", FClass); ("purely_positive", FPositive); ("w_upper", FUpper); ("w_lower", FLower)]
    ++ match k with
       | Elias => [("Delta_factor", FDelta); ("U_factor", FU); ("W_scale", FScale)]
       | Hybrid => [("pos_section_boundaries0", FSection0); ("pos_section_boundaries1", FSection1)]
       | Angular => [("number_of_intervals", FIntervals)]
       end.
  Fixpoint read_grid_fields (f : file) (sub : string) (it : Z) (l : list (string * gfield)) (g : gfield -> V) : res (gfield -> V) :=
    match l with
    | [] => Val g
    | (name, x) :: l => v <~ rd f (Sub sub) name it ;; read_grid_fields f sub it l (fun y => if gfield_beq y x then v else g y)
    end.
  Definition read_grid (f : file) (sub : string) (it : Z) (k : gkind) : res (gfield -> V) :=
    _ <~ rd f (Sub sub) "number_of_gridpoints" it ;; (* read but not used *)
    g <~ read_grid_fields f sub it (read_fields k) (fun _ => fill) ;;
    Val (fun y => if gfield_beq y FNumber then npoints (g FType) (g FClass) (g FPositive) else g y).
  Fixpoint read_members (f : file) (it : Z) (l : list (string * member)) (s : state) : res state :=
    match l with
    | [] => Val s
    | (name, m) :: l => v <~ rd f Root name it ;; read_members f it l (set_mem s m v)
    end.
  Fixpoint read_all_grids (f : file) (it : Z) (l : list (string * gslot)) (s : state) : res state :=
    match l with
    | [] => Val s
    | (sub, g) :: l => v <~ read_grid f sub it (kind g) ;; read_all_grids f it l (set_grid s g v)
    end.
  (** hdf5_routines.c++:59-190; [junk]: what the constructor of the state puts into members that are not stored *)
  Definition read_file (junk : state) (f : file) (it : Z) : res state :=
    L <~ rd f Root "lambdas" it ;;
    c <~ read_config f ;;
    s <~ read_members f it read_table {| mem := fun m => if member_beq m MLambda then L else mem junk m; grid := grid junk; conf := c |} ;;
    _ <~ open_all f (Freq :: map Sub groups) ;;
    s <~ read_all_grids f it read_grids s ;;
    _ <~ rd_attr f Params "GRID" ;; (* compared with the executable; a mismatch is printed only *)
    Val s.
  Definition read_state (junk : state) (d : disk) (name : string) (it : Z) : res state :=
    match d name with None => Exn FileI | Some f => read_file junk f it end.
  (** hdf5_routines.c++:194-213 *)
  Definition check_file (f : file) : res (bool * Z) :=
    _ <~ open_group f Params ;;
    c <~ rd_attr f Params "is_converged" ;; l <~ rd_attr f Params "last_Lambda_it" ;;
    match c, l with ABool c, AInt (Some l) => Val (c, l) | _, _ => Exn DataI end.
  Definition check_convergence (d : disk) (name : string) : res (bool * Z) :=
    match (match d name with None => Exn FileI | Some f => check_file f end) with
    | Exn FileI => Val (false, -1)
    | r => r
    end.

  (** ** the flow *)
  (** right_hand_sides.hpp:134-159; [v]: the three statistics, the second of which is also written in place of the third *)
  Definition stats_ops (v : V * V * V) (it n : Z) : list op :=
    let ex := 1 <? it in
    let '(a, b, _) := v in
    [if ex then OOpen Stats else OCreate Stats; OLayer Stats "SE_iterations" a it n ex; OLayer Stats "time_for_mfRG_Eqs" b it n ex; OLayer Stats "RK_attempts" b it n ex].
  Definition write_stats (d : disk) (name : string) (v : V * V * V) (it n : Z) : disk * option exc :=
    match d name with None => (d, Some FileI) | Some f => let '(f, e) := run (stats_ops v it n) f in (put d name f, e) end.
  (** ODE_solvers.hpp:560-561 and 31-52: what is saved after every step, from step [i]; [n]: number of layers the statistics assume *)
  Fixpoint flow_saves (d : disk) (name : string) (n i : Z) (steps : list (state * bool * (V * V * V))) : disk * option exc :=
    match steps with
    | [] => (d, None)
    | (s, c, v) :: steps =>
        let '(d, e) := add_state d name (i + 1) s c in
        match e with
        | Some e => (d, Some e)
        | None => let '(d, e) := write_stats d name v (i + 1) n in
                  match e with Some e => (d, Some e) | None => flow_saves d name n (i + 1) steps end
        end
    end.
  (** flow.c++:3-30, 58-61, 76-90. [solve]: the states after every step of the solver, from the given state and step; [ini]: state of a new run; [n]: nODE + checkpoints + 1 *)
  Inductive outcome := Loaded (s : state) | Flowed (from : state) (i : Z) | Failed (e : exc).
  Definition with_run (c : config) (s : state) : state :=
    {| mem := mem s; grid := grid s;
       conf := {| nODE := nODE c; eps_abs := eps_abs c; eps_rel := eps_rel c; cU := cU (conf s); cT := cT (conf s); cGamma := cGamma (conf s); ceps := ceps (conf s);
                  save := save (conf s); nloops := nloops (conf s); nodes := nodes (conf s) |} |}.
  Definition start (junk ini : state) (d : disk) (name : string) (c : config) (n : Z) : disk * outcome :=
    match check_convergence d name with
    | Exn e => (d, Failed e)
    | Val (true, it) => match read_state junk d name it with Val s => (d, Loaded s) | Exn e => (d, Failed e) end
    | Val (false, it) =>
        if 0 <=? it then match read_state junk d name it with Val s => (d, Flowed (with_run c s) it) | Exn e => (d, Failed e) end
        else let '(d, e) := write_state d name n ini false in
             match e with None => (d, Flowed ini 0) | Some e => (d, Failed e) end
    end.
  Definition n_loop_flow (junk ini : state) (solve : state -> Z -> list (state * bool * (V * V * V))) (d : disk) (name : string) (c : config) (n : Z) : disk * option exc :=
    match start junk ini d name c n with
    | (d, Loaded s) => (d, None)
    | (d, Failed e) => (d, Some e)
    | (d, Flowed s i) => flow_saves d name n i (solve s i)
    end.
  (** flow.c++:118-156, start iteration within the range *)
  Definition restart (junk : state) (solve : state -> Z -> list (state * bool * (V * V * V))) (d : disk) (name : string) (n it : Z) : disk * option exc :=
    match read_state junk d name it with
    | Exn e => (d, Some e)
    | Val s => let '(d, e) := write_state d name n s false in
               match e with Some e => (d, Some e) | None => flow_saves d name n it (solve s it) end
    end.
  (** perturbation_theory_and_parquet/parquet_solver.hpp:519-535, not starting from scratch, result not converged *)
  Definition parquet_begin (junk s : state) (d : disk) (name : string) : disk * option exc :=
    match check_convergence d name with
    | Exn e => (d, Some e)
    | Val (_, it) => if 0 <=? it then match read_state junk d name it with Val s => write_state d name 5 s false | Exn e => (d, Some e) end
                     else write_state d name 5 s false
    end.
  (** 561-648: the result of iteration i is written to layer i mod 5 *)
  Fixpoint parquet_saves (d : disk) (name : string) (i : Z) (l : list (state * bool)) : disk * option exc :=
    match l with
    | [] => (d, None)
    | (s, c) :: l => let '(d, e) := add_state d name (i mod 5) s c in match e with Some e => (d, Some e) | None => parquet_saves d name (i + 1) l end
    end.
End Store.
