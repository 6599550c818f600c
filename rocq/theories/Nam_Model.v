(** Names of the files a run writes (utilities/util.c++, main.cpp, mfRG_flow/flow.c++,
    perturbation_theory_and_parquet/parquet_solver.c++), and the file the flow takes its starting
    point from. Numbers are exact rationals; std::to_string(double) prints six decimals rounded to
    nearest, ties to even ("%f"); the negative zero of IEEE doubles is not modelled. *)
From Coq Require Import QArith Qabs Qround String Ascii Decimal DecimalString DecimalZ.
From Verif Require Import Prelude.
Open Scope Z_scope.
Open Scope string_scope.

(** std::to_string(int) *)
Definition show_int (z : Z) : string := NilZero.string_of_int (Z.to_int z).

(** one decimal digit, 0 <= d < 10 *)
Definition digit (d : Z) : string := String (ascii_of_N (Z.to_N (48 + d))) "".
(** the last [k] decimal digits of [z], padded with zeros *)
Fixpoint padded (k : nat) (z : Z) : string :=
  match k with
  | O => ""
  | S k' => padded k' (z / 10) ++ digit (z mod 10)
  end.

(** rounding of a non-negative number to the nearest integer, ties to even *)
Definition round_even (q : Q) : Z :=
  let f := Qfloor q in
  match Qcompare (q - inject_Z f) (1 # 2) with
  | Lt => f
  | Gt => f + 1
  | Eq => if Z.even f then f else f + 1
  end.

(** the absolute value in units of 10^-6, as printed *)
Definition micro (q : Q) : Z := round_even (Qabs q * (1000000 # 1)).
(** std::to_string(double) *)
Definition show_double (q : Q) : string :=
  (if Qlt_le_dec q 0 then "-" else "")
  ++ NilZero.string_of_uint (N.to_uint (Z.to_N (micro q / 1000000))) ++ "." ++ padded 6 (micro q mod 1000000).

(** compile-time switches and constants (parameters/master_parameters.hpp, frequency_parameters.hpp) *)
Record switches := {
  keldysh : bool; debug_symmetries : bool; sbe : bool; particle_hole : bool; max_class : Z; reg : Z;
  static_feedback : bool; adaptive_grid : bool; pt2_flow : bool;
  n_BOS : Z; n_BOS2 : Z; n_BOS3 : Z; voltage : Q; L_ini : Q }.

(** data_structures.hpp:627-638 (tolerances and save_intermediateResults do not enter any name) *)
Record config := {
  c_nODE : Z; c_nloops : Z; c_nodes : Z; c_U : Q; c_T : Q; c_Gamma : Q; c_eps : Q }.

(** epsilon + U*0.5 *)
Definition gate (c : config) : Q := (c_eps c + c_U c * (1 # 2))%Q.

(** conversion to int: towards zero *)
Definition to_int (q : Q) : Z := if Qlt_le_dec q 0 then - Qfloor (- q) else Qfloor q.

(** util.c++:181-209 generate_filename *)
Definition generate_filename (s : switches) (c : config) : string :=
  "K" ++ show_int (max_class s) ++ "_" ++ show_int (c_nloops c) ++ "LF_" ++ "n1=" ++ show_int (n_BOS s) ++ "_"
  ++ (if (2 <=? max_class s)%Z then "n2=" ++ show_int (n_BOS2 s) ++ "_" else "")
  ++ (if static_feedback s then "static_" else "")
  ++ (if (3 <=? max_class s)%Z then "n3=" ++ show_int (n_BOS3 s) ++ "_" else "")
  ++ "Gamma=" ++ show_double (c_Gamma c) ++ "_"
  ++ (if particle_hole s then "" else "eVg=" ++ show_double (gate c) ++ "_")
  ++ (if Qeq_bool (voltage s) 0 then "" else "V=" ++ show_double (voltage s) ++ "_")
  ++ "T=" ++ show_double (c_T c) ++ "_"
  ++ "L_ini=" ++ show_int (to_int (L_ini s)) ++ "_"
  ++ "nODE=" ++ show_int (c_nODE c) ++ ".h5".

(** main.cpp:60-68 the job string. PARTICLE_HOLE_SYMM is always defined (to 0 or 1, master_parameters.hpp:29),
    so that the lines between #ifndef PARTICLE_HOLE_SYMM and #endif are never compiled. *)
Definition job (s : switches) (c : config) : string :=
  "T=" ++ show_double (c_T c) ++ "_U=" ++ show_double (c_U c) ++ (if sbe s then "_SBE" else "").

(** util.c++:154-179 generate_data_directory *)
Definition data_directory (s : switches) (c : config) : string :=
  (if keldysh s
   then if debug_symmetries s then "../Data_KF_debug" else "../Data_KF" ++ job s c ++ "_REG=" ++ show_int (reg s)
   else if debug_symmetries s then "../Data_MF_debug" else "../Data_MF" ++ job s c)
  ++ (if sbe s then "_SBE" else "") ++ "/".

(** flow.c++:40 *)
Definition parquet_temp_file (s : switches) (c : config) (i : Z) : string :=
  data_directory s c ++ "parquetInit4_temp" ++ show_int i ++ "_n1=" ++ show_int (n_BOS s)
  ++ (if (1 <? max_class s)%Z then "_n2=" ++ show_int (n_BOS2 s) else "")
  ++ (if (2 <? max_class s)%Z then "_n3=" ++ show_int (n_BOS3 s) else "") ++ ".h5".
(** flow.c++:55 *)
Definition parquet_start_file (s : switches) (c : config) : string :=
  data_directory s c ++ "parquetInit4_final_n1=" ++ show_int (n_BOS s) ++ "_n2=" ++ show_int (n_BOS2 s)
  ++ "_n3=" ++ show_int (n_BOS3 s) ++ ".h5".

(** main.cpp:72, the argument of n_loop_flow *)
Definition flow_file (s : switches) (c : config) : string := data_directory s c ++ generate_filename s c.

(** parquet_solver.c++:108-112: [Lambda] a checkpoint *)
Definition u_over_delta (c : config) (Lambda : Q) : Q := (c_U c / ((c_Gamma c + Lambda) * (1 # 2)))%Q.
Definition parquet_file (s : switches) (c : config) (version : Z) (Lambda : Q) (final : bool) : string :=
  data_directory s c ++ "parquetInit4_U_over_Delta=" ++ show_double (u_over_delta c Lambda)
  ++ "_T=" ++ show_double (c_T c) ++ "_eVg=" ++ show_double (gate c) ++ "_n1=" ++ show_int (n_BOS s)
  ++ "_n2=" ++ show_int (n_BOS2 s) ++ "_n3=" ++ show_int (n_BOS3 s) ++ "_version" ++ show_int version
  ++ (if final then "_final.h5" else ".h5").

(** main.cpp:112-114: [u] an element of U_over_Delta_list *)
Definition pt2_file (s : switches) (c : config) (u : Q) : string :=
  data_directory s c ++ "PT2_U_over_Delta=" ++ show_double u ++ "_T=" ++ show_double (c_T c)
  ++ "_eVg=" ++ show_double (gate c) ++ "_n1=" ++ show_int (n_BOS s) ++ ".h5".

(** the result files of one call of main (main.cpp:70-117, flow.c++:35-103, parquet_solver.c++:98-120), an
    fRG flow starting from scratch; [Lambdas]: the checkpoints of the parquet runs, [us]: the list at
    main.cpp:84. Diagnostic files of postprocessing and of save_intermediateResults are left out. *)
Definition run_files (s : switches) (c : config) (Lambdas us : list Q) : list string :=
  if (0 <? c_nloops c)%Z then
    ((if adaptive_grid s then [parquet_temp_file s c 0] else [])
     ++ (if pt2_flow s then [] else [parquet_start_file s c])
     ++ [flow_file s c]
     ++ (if adaptive_grid s then [String.append (flow_file s c) "_postOpt"] else [])
     ++ [String.append (flow_file s c) "_final"])%list
  else if (c_nloops c =? 0)%Z then
    concat (map (fun L => [parquet_file s c 1 L false; parquet_file s c 1 L true]) Lambdas)
  else if (c_nloops c =? -2)%Z then map (pt2_file s c) us
  else [].

(** main.cpp:43-55: the configuration set up from the command line; [pi]: M_PI *)
Definition main_config (s : switches) (zero_T : bool) (pi : Q) (n_loops n_nodes : Z) (T_in : Q) : config :=
  {| c_nODE := 1; c_nloops := n_loops; c_nodes := n_nodes; c_U := 1;
     c_T := if zero_T then 0 else T_in;
     c_Gamma := if (reg s =? 5)%Z then (4 / pi)%Q else (1 # 5)%Q;
     c_eps := ((if particle_hole s then 0 else 1 # 2) - 1 * (1 # 2))%Q |}.

(** flow.c++:43-57 with parquet_solver.hpp:515-530: the state the flow starts from. [files]: for each file
    name whether the stored run is marked as converged and its last saved state; [prepare]: initial state in
    second-order perturbation theory; [iterate]: what the iterations make of a state, with the mark of
    convergence they leave in the file. The file system after the call comes second. *)
Section start.
  Variable State : Type.
  Variable prepare : config -> State.
  Variable iterate : config -> State -> bool * State.
  Definition store := string -> option (bool * State).
  Definition update (f : store) (n : string) (v : bool * State) : store :=
    fun m => if String.eqb m n then Some v else f m.
  Definition flow_start (s : switches) (c : config) (files : store) : State * store :=
    if pt2_flow s then (prepare c, files)
    else match files (parquet_start_file s c) with
    | Some (true, st) => (st, files)
    | Some (false, st) => let r := iterate c st in (snd r, update files (parquet_start_file s c) r)
    | None => let r := iterate c (prepare c) in (snd r, update files (parquet_start_file s c) r)
    end.
End start.
