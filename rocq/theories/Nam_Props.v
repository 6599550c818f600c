(** Theorems for C68 (result files distinguish runs). *)
From Coq Require Import QArith Qabs Qround String Ascii DecimalString Lia Lqa.
From Verif Require Import Prelude Nam_Model Nam_Spec Nam_Proofs.
Open Scope Z_scope.
Open Scope string_scope.

(** take the next number off both sides of an equation between names *)
Ltac num_field E H :=
  apply (field is_num) in E;
  [destruct E as (H & _ & E); apply show_double_iff in H|apply show_double_chars|apply show_double_chars|reflexivity|reflexivity].
Ltac int_field E H :=
  apply (field is_int) in E;
  [destruct E as (H & _ & E); apply show_int_inj in H|apply show_int_chars|apply show_int_chars|reflexivity|reflexivity].

Lemma directory_split s c c' x x' : data_directory s c ++ x = data_directory s c' ++ x' ->
  (debug_symmetries s = false -> same_digits (c_T c) (c_T c') /\ same_digits (c_U c) (c_U c')) /\ x = x'.
Proof.
  unfold data_directory, job. destruct (keldysh s), (debug_symmetries s), (sbe s);
    rewrite ?app_assoc_s; cbn [append]; rewrite ?app_assoc_s; intros E;
    try (split; [discriminate|]; repeat (injection E as E); exact E);
    repeat (injection E as E); num_field E A; repeat (injection E as E); num_field E B; split;
    try (intros _; split; assumption).
  - repeat (injection E as E). int_field E C. repeat (injection E as E). exact E.
  - repeat (injection E as E). int_field E C. repeat (injection E as E). exact E.
  - repeat (injection E as E). exact E.
  - exact E.
Qed.
Lemma directory_same s c c' :
  (debug_symmetries s = false -> same_digits (c_T c) (c_T c') /\ same_digits (c_U c) (c_U c')) ->
  data_directory s c = data_directory s c'.
Proof.
  intros H. unfold data_directory, job. destruct (debug_symmetries s); [reflexivity|].
  destruct (H eq_refl) as [A B]. apply show_double_iff in A, B. rewrite A, B. reflexivity.
Qed.

(** ** Result files of a flow *)
(** two flows of the same program write to the same result file exactly if these parameters agree *)
Theorem C68_flow_partial : forall s c c',
  flow_file s c = flow_file s c' <->
  c_nloops c = c_nloops c' /\ c_nODE c = c_nODE c' /\
  same_digits (c_Gamma c) (c_Gamma c') /\ same_digits (c_T c) (c_T c') /\
  (particle_hole s = false -> same_digits (gate c) (gate c')) /\
  (debug_symmetries s = false -> same_digits (c_U c) (c_U c')).
Proof.
  intros s c c'. split.
  - intros E. apply directory_split in E. destruct E as [D E]. revert E. unfold generate_filename.
    cbn [append]. intros E. injection E as E. apply app_cancel in E. cbn [append] in E. injection E as E.
    int_field E L. repeat (injection E as E). apply app_cancel in E. cbn [append] in E. injection E as E.
    apply app_cancel in E. apply app_cancel in E. apply app_cancel in E. repeat (injection E as E). num_field E G.
    assert (P : (particle_hole s = false -> same_digits (gate c) (gate c')) /\
      (if Qeq_bool (voltage s) 0 then "" else "V=" ++ show_double (voltage s) ++ "_")
      ++ "T=" ++ show_double (c_T c) ++ "_" ++ "L_ini=" ++ show_int (to_int (L_ini s)) ++ "_"
      ++ "nODE=" ++ show_int (c_nODE c) ++ ".h5"
      = (if Qeq_bool (voltage s) 0 then "" else "V=" ++ show_double (voltage s) ++ "_")
      ++ "T=" ++ show_double (c_T c') ++ "_" ++ "L_ini=" ++ show_int (to_int (L_ini s)) ++ "_"
      ++ "nODE=" ++ show_int (c_nODE c') ++ ".h5").
    { destruct (particle_hole s); [split; [discriminate|exact E]|].
      rewrite ?app_assoc_s in E. cbn [append] in E. rewrite ?app_assoc_s in E. repeat (injection E as E). num_field E V.
      split; [intros _; exact V|exact E]. }
    clear E. destruct P as [P E]. apply app_cancel in E. cbn [append] in E. injection E as E. num_field E T.
    repeat (injection E as E). apply app_cancel in E. cbn [append] in E. repeat (injection E as E). int_field E HN.
    refine (conj L (conj HN (conj G (conj T (conj P _))))). intros H. apply (D H).
  - intros (L & N & G & T & P & U). unfold flow_file.
    rewrite (directory_same s c c') by (intros H; split; [exact T|exact (U H)]). f_equal.
    unfold generate_filename. apply show_double_iff in G, T. rewrite L, N, G, T.
    destruct (particle_hole s); [reflexivity|]. specialize (P eq_refl). apply show_double_iff in P. rewrite P. reflexivity.
Qed.

(** a parameter that enters the name and is changed by more than 10^-6 changes the name *)
Theorem C68_flow_apart_partial : forall s c c',
  ((1 # 1000000 < Qabs (c_T c - c_T c')) \/ (1 # 1000000 < Qabs (c_Gamma c - c_Gamma c')) \/
   (particle_hole s = false /\ 1 # 1000000 < Qabs (gate c - gate c')) \/
   (debug_symmetries s = false /\ 1 # 1000000 < Qabs (c_U c - c_U c')))%Q ->
  flow_file s c <> flow_file s c'.
Proof.
  intros s c c' H E. apply C68_flow_partial in E. destruct E as (_ & _ & G & T & P & U).
  destruct H as [H|[H|[[K H]|[K H]]]]; [..|apply (digits_apart _ _ H (P K))|apply (digits_apart _ _ H (U K))];
    eapply digits_apart; eauto.
Qed.

(** ** Result files of the parquet solver and of perturbation theory *)
Theorem C68_parquet_partial : forall s c c' v v' L L' fin fin',
  parquet_file s c v L fin = parquet_file s c' v' L' fin' <->
  same_digits (c_U c / ((c_Gamma c + L) * (1 # 2))) (c_U c' / ((c_Gamma c' + L') * (1 # 2))) /\ same_digits (c_T c) (c_T c') /\
  same_digits (c_eps c + c_U c * (1 # 2)) (c_eps c' + c_U c' * (1 # 2)) /\ v = v' /\ fin = fin' /\
  (debug_symmetries s = false -> same_digits (c_U c) (c_U c')).
Proof.
  intros s c c' v v' L L' fin fin'. split.
  - intros E. apply directory_split in E. destruct E as [D E]. cbn [append] in E. repeat (injection E as E).
    num_field E A. repeat (injection E as E). num_field E T. repeat (injection E as E). num_field E G.
    repeat (injection E as E). apply app_cancel in E. cbn [append] in E. repeat (injection E as E).
    apply app_cancel in E. cbn [append] in E. repeat (injection E as E).
    apply app_cancel in E. cbn [append] in E. repeat (injection E as E).
    assert (V : v = v' /\ fin = fin').
    { destruct fin, fin'; apply (field is_int) in E; try apply show_int_chars; try reflexivity;
        destruct E as (E1 & E2 & _); try discriminate E2; apply show_int_inj in E1; auto. }
    destruct V as [V F]. refine (conj A (conj T (conj G (conj V (conj F _))))). intros H. apply (D H).
  - intros (A & T & G & -> & -> & U). unfold parquet_file.
    rewrite (directory_same s c c') by (intros H; split; [exact T|exact (U H)]).
    apply show_double_iff in A, T, G. unfold u_over_delta, gate. rewrite A, T, G. reflexivity.
Qed.
Theorem C68_perturbation_partial : forall s c c' u u',
  pt2_file s c u = pt2_file s c' u' <->
  same_digits u u' /\ same_digits (c_T c) (c_T c') /\ same_digits (gate c) (gate c') /\
  (debug_symmetries s = false -> same_digits (c_U c) (c_U c')).
Proof.
  intros s c c' u u'. split.
  - intros E. apply directory_split in E. destruct E as [D E]. cbn [append] in E. repeat (injection E as E).
    num_field E A. repeat (injection E as E). num_field E T. repeat (injection E as E). num_field E G.
    refine (conj A (conj T (conj G _))). intros H. apply (D H).
  - intros (A & T & G & U). unfold pt2_file.
    rewrite (directory_same s c c') by (intros H; split; [exact T|exact (U H)]).
    apply show_double_iff in A, T, G. rewrite A, T, G. reflexivity.
Qed.

(** one flow does not overwrite its own files *)
Theorem C68_flow_distinct_partial : forall s c Ls us, 0 < c_nloops c -> NoDup (run_files s c Ls us).
Proof.
  intros s c Ls us H. unfold run_files. apply Z.ltb_lt in H. rewrite H.
  assert (P : forall a, parquet_temp_file s c 0 <> flow_file s c ++ a).
  { intros a E. unfold parquet_temp_file, flow_file in E. rewrite app_assoc_s in E. apply app_cancel in E. discriminate E. }
  assert (P2 : forall a, parquet_start_file s c <> flow_file s c ++ a).
  { intros a E. unfold parquet_start_file, flow_file in E. rewrite app_assoc_s in E. apply app_cancel in E. discriminate E. }
  assert (P0 : parquet_temp_file s c 0 <> parquet_start_file s c).
  { intros E. unfold parquet_temp_file, parquet_start_file in E. apply app_cancel in E. discriminate E. }
  assert (Q : forall a, a <> "" -> flow_file s c <> flow_file s c ++ a).
  { intros a N E. apply N. assert (Z : flow_file s c ++ "" = flow_file s c ++ a).
    { rewrite <- E. clear. generalize (flow_file s c). intros t. induction t as [|x t IH]; cbn; [reflexivity|]. rewrite IH. reflexivity. }
    apply app_cancel in Z. auto. }
  assert (Pe : parquet_temp_file s c 0 <> flow_file s c).
  { intros E. apply (P ""). rewrite E. clear. generalize (flow_file s c). intros t. induction t as [|x t IH]; cbn; [reflexivity|]. rewrite <- IH. reflexivity. }
  assert (Pe2 : parquet_start_file s c <> flow_file s c).
  { intros E. apply (P2 ""). rewrite E. clear. generalize (flow_file s c). intros t. induction t as [|x t IH]; cbn; [reflexivity|]. rewrite <- IH. reflexivity. }
  assert (R : flow_file s c ++ "_postOpt" <> flow_file s c ++ "_final").
  { intros E. apply app_cancel in E. discriminate E. }
  pose proof (Q "_postOpt" ltac:(discriminate)) as Q1. pose proof (Q "_final" ltac:(discriminate)) as Q2.
  destruct (adaptive_grid s), (pt2_flow s); cbn [app];
    repeat (constructor; [cbn [In]; intuition (try congruence; eauto)|]); try constructor.
Qed.

(** ** Refutations *)
(** the default program (master_parameters.hpp, frequency_parameters.hpp) *)
Definition default_switches : switches := {|
  keldysh := true; debug_symmetries := true; sbe := false; particle_hole := true; max_class := 3; reg := 2;
  static_feedback := false; adaptive_grid := false; pt2_flow := false;
  n_BOS := 401; n_BOS2 := 201; n_BOS3 := 51; voltage := 0; L_ini := 198 # 10 |}.
(** the same without particle-hole symmetry, symmetries used *)
Definition production : switches := {|
  keldysh := true; debug_symmetries := false; sbe := false; particle_hole := false; max_class := 3; reg := 2;
  static_feedback := false; adaptive_grid := false; pt2_flow := false;
  n_BOS := 401; n_BOS2 := 201; n_BOS3 := 51; voltage := 0; L_ini := 198 # 10 |}.

(** the default program called for two temperatures writes the parquet solution to the same file *)
Theorem C68_temperature_refuted : forall pi n n' nodes nodes' T T' Ls us,
  0 < n -> 0 < n' ->
  shared (run_files default_switches (main_config default_switches false pi n nodes T) Ls us)
         (run_files default_switches (main_config default_switches false pi n' nodes' T') Ls us).
Proof.
  intros pi n n' nodes nodes' T T' Ls us H H'. exists (parquet_start_file default_switches (main_config default_switches false pi n nodes T)).
  apply Z.ltb_lt in H, H'. unfold run_files. cbn [c_nloops main_config]. rewrite H, H'. split; left; reflexivity.
Qed.
(** and once the first of them is converged, the second starts from it, at whatever temperature *)
Theorem C68_start_refuted : forall State prepare iterate pi n n' nodes nodes' T T' (files : store State),
  let c := main_config default_switches false pi n nodes T in
  let c' := main_config default_switches false pi n' nodes' T' in
  files (parquet_start_file default_switches c) = None -> fst (iterate c (prepare c)) = true ->
  fst (flow_start State prepare iterate default_switches c'
         (snd (flow_start State prepare iterate default_switches c files)))
  = snd (iterate c (prepare c)).
Proof.
  intros State prepare iterate pi n n' nodes nodes' T T' files c c' F C. unfold flow_start at 2.
  cbn [pt2_flow default_switches]. rewrite F. cbn [snd]. unfold flow_start. cbn [pt2_flow default_switches].
  change (parquet_start_file default_switches c') with (parquet_start_file default_switches c).
  unfold update. rewrite String.eqb_refl. destruct (iterate c (prepare c)) as [b st]. cbn [fst snd] in *. subst b. reflexivity.
Qed.
(** with symmetries used, runs at two gate voltages share it: the gate voltage is not part of the
    directory *)
Theorem C68_gate_refuted : forall n U T Gamma eps eps' nODE nodes Ls us, 0 < n ->
  shared (run_files production {| c_nODE := nODE; c_nloops := n; c_nodes := nodes; c_U := U; c_T := T; c_Gamma := Gamma; c_eps := eps |} Ls us)
         (run_files production {| c_nODE := nODE; c_nloops := n; c_nodes := nodes; c_U := U; c_T := T; c_Gamma := Gamma; c_eps := eps' |} Ls us).
Proof.
  intros n U T Gamma eps eps' nODE nodes Ls us H. apply Z.ltb_lt in H.
  eexists. unfold run_files. cbn [c_nloops]. rewrite H. split; left; reflexivity.
Qed.
(** different interactions: every result file of the default program is the same *)
Theorem C68_interaction_refuted : forall n U U' T Gamma nODE nodes Ls us, 0 < n ->
  run_files default_switches {| c_nODE := nODE; c_nloops := n; c_nodes := nodes; c_U := U; c_T := T; c_Gamma := Gamma; c_eps := - U * (1 # 2) |} Ls us
  = run_files default_switches {| c_nODE := nODE; c_nloops := n; c_nodes := nodes; c_U := U'; c_T := T; c_Gamma := Gamma; c_eps := - U' * (1 # 2) |} Ls us.
Proof.
  intros n U U' T Gamma nODE nodes Ls us H. apply Z.ltb_lt in H. unfold run_files. cbn [c_nloops]. rewrite H. reflexivity.
Qed.
(** ** Calls of the program *)
(** the flow result of two calls of the same program is the same file exactly for the same number of loops and
    temperatures with the same six decimals *)
Theorem C68_calls_partial : forall s pi n n' nodes nodes' T T',
  flow_file s (main_config s false pi n nodes T) = flow_file s (main_config s false pi n' nodes' T') <->
  n = n' /\ same_digits T T'.
Proof.
  intros. rewrite C68_flow_partial. cbn [main_config c_nloops c_nODE c_Gamma c_T c_U].
  assert (R : forall x, same_digits x x) by (intros x; apply show_double_iff; reflexivity).
  split.
  - intros (A & _ & _ & B & _). auto.
  - intros [A B]. refine (conj A (conj eq_refl (conj (R _) (conj B (conj _ _))))); intros _; apply R.
Qed.
Theorem C68_gate_value_partial : forall s z pi n nodes T,
  (gate (main_config s z pi n nodes T) == if particle_hole s then 0 else 1 # 2)%Q.
Proof. intros. unfold gate, main_config. cbn [c_eps c_U]. destruct (particle_hole s); reflexivity. Qed.

(** flows that start from perturbation theory share no file unless the results are the same file *)
Lemma last_differs : forall x y a b, a <> b -> x ++ String a "" <> y ++ String b "".
Proof. intros x y a b N E. apply app_last in E. tauto. Qed.
Lemma flow_file_h5 : forall s c, exists x, flow_file s c = x ++ "5".
Proof.
  intros. unfold flow_file, generate_filename. eexists. change ".h5" with (".h" ++ "5").
  rewrite <- !app_assoc_s. reflexivity.
Qed.
Theorem C68_pt2_flow_partial : forall s c c' Ls us,
  pt2_flow s = true -> adaptive_grid s = false -> 0 < c_nloops c -> 0 < c_nloops c' ->
  flow_file s c <> flow_file s c' -> ~ shared (run_files s c Ls us) (run_files s c' Ls us).
Proof.
  intros s c c' Ls us P A N N' H (f & I & I'). unfold run_files in I, I'. apply Z.ltb_lt in N, N'.
  rewrite N, P, A in I. rewrite N', P, A in I'. cbn [app In] in I, I'.
  destruct (flow_file_h5 s c) as [x E], (flow_file_h5 s c') as [x' E'].
  assert (B : forall y y', y ++ "5" <> y' ++ "_final").
  { intros y y'. change "_final" with ("_fina" ++ "l"). rewrite <- app_assoc_s. apply last_differs. discriminate. }
  destruct I as [I|[I|[]]], I' as [I'|[I'|[]]]; subst f.
  - congruence.
  - rewrite E in I'. symmetry in I'. exact (B _ _ I').
  - rewrite E' in I'. exact (B _ _ I').
  - apply H. rewrite E, E'. rewrite E, E' in I'.
    change "_final" with ("_fina" ++ "l") in I'. rewrite <- !app_assoc_s in I'. apply app_last in I' as [I' _].
    change "_fina" with ("_fin" ++ "a") in I'. rewrite <- !app_assoc_s in I'. apply app_last in I' as [I' _].
    change "_fin" with ("_fi" ++ "n") in I'. rewrite <- !app_assoc_s in I'. apply app_last in I' as [I' _].
    change "_fi" with ("_f" ++ "i") in I'. rewrite <- !app_assoc_s in I'. apply app_last in I' as [I' _].
    change "_f" with ("_" ++ "f") in I'. rewrite <- !app_assoc_s in I'. apply app_last in I' as [I' _].
    apply app_last in I' as [I' _]. symmetry. exact I'.
Qed.

(** the initial scale enters by its integer part *)
Definition with_scale (s : switches) (L : Q) : switches := {|
  keldysh := keldysh s; debug_symmetries := debug_symmetries s; sbe := sbe s; particle_hole := particle_hole s;
  max_class := max_class s; reg := reg s; static_feedback := static_feedback s; adaptive_grid := adaptive_grid s;
  pt2_flow := pt2_flow s; n_BOS := n_BOS s; n_BOS2 := n_BOS2 s; n_BOS3 := n_BOS3 s; voltage := voltage s; L_ini := L |}.
Theorem C68_scale_refuted : forall s c L L' (z : Z), (0 <= z) ->
  (inject_Z z <= L)%Q -> (L < inject_Z (z + 1))%Q -> (inject_Z z <= L')%Q -> (L' < inject_Z (z + 1))%Q ->
  flow_file (with_scale s L) c = flow_file (with_scale s L') c.
Proof.
  intros s c L L' z Z0 A B A' B'.
  assert (F : forall x, (inject_Z z <= x)%Q -> (x < inject_Z (z + 1))%Q -> to_int x = z).
  { intros x X Y. assert (0 <= x)%Q by (apply Qle_trans with (inject_Z z); [change 0%Q with (inject_Z 0); rewrite <- Zle_Qle; exact Z0|exact X]).
    unfold to_int. destruct (Qlt_le_dec x 0) as [Q1|Q1]; [lra|].
    pose proof (Qfloor_le x) as F1. pose proof (Qlt_floor x) as F2.
    assert (z < Qfloor x + 1) by (rewrite Zlt_Qlt; apply Qle_lt_trans with x; assumption).
    assert (Qfloor x < z + 1) by (rewrite Zlt_Qlt; apply Qle_lt_trans with x; assumption). lia. }
  unfold flow_file, generate_filename. cbn. rewrite (F L A B), (F L' A' B'). reflexivity.
Qed.
(** small temperatures: every file of the program that uses the symmetries is the same *)
Theorem C68_digits_refuted : exists T T' : Q, ~ (T == T')%Q /\ forall n U Gamma eps nODE nodes Ls us,
  run_files production {| c_nODE := nODE; c_nloops := n; c_nodes := nodes; c_U := U; c_T := T; c_Gamma := Gamma; c_eps := eps |} Ls us
  = run_files production {| c_nODE := nODE; c_nloops := n; c_nodes := nodes; c_U := U; c_T := T'; c_Gamma := Gamma; c_eps := eps |} Ls us.
Proof. exists (1 # 10000000), (2 # 10000000). split; [discriminate|]. reflexivity. Qed.

(** ** Examples *)
Example C68_flow_hyp :
  generate_filename default_switches (main_config default_switches false (314 # 100) 3 1 (1 # 100))
  = "K3_3LF_n1=401_n2=201_n3=51_Gamma=0.200000_T=0.010000_L_ini=19_nODE=1.h5"
  /\ data_directory production (main_config production false (314 # 100) 3 1 (1 # 100)) = "../Data_KFT=0.010000_U=1.000000_REG=2/".
Proof. split; reflexivity. Qed.
Example C68_flow_apart_hyp :
  (1 # 1000000 < Qabs (c_T (main_config production false 3 3 1 (1 # 100)) - c_T (main_config production false 3 3 1 (1 # 50))))%Q
  /\ show_double (25 # 10000000) = "0.000002" /\ show_double (15 # 10000000) = "0.000002" /\ show_double (- (3 # 2)) = "-1.500000".
Proof. repeat split; reflexivity. Qed.
Example C68_parquet_hyp :
  parquet_file production (main_config production false 3 0 1 (1 # 100)) 1 (1 # 5) true
  = "../Data_KFT=0.010000_U=1.000000_REG=2/parquetInit4_U_over_Delta=5.000000_T=0.010000_eVg=0.500000_n1=401_n2=201_n3=51_version1_final.h5".
Proof. reflexivity. Qed.
Example C68_perturbation_hyp :
  pt2_file default_switches (main_config default_switches false 3 (-2) 1 (1 # 100)) (157 # 100)
  = "../Data_KF_debug/PT2_U_over_Delta=1.570000_T=0.010000_eVg=0.000000_n1=401.h5".
Proof. reflexivity. Qed.
Example C68_flow_distinct_hyp :
  run_files default_switches (main_config default_switches false 3 1 1 (1 # 100)) [] []
  = ["../Data_KF_debug/parquetInit4_final_n1=401_n2=201_n3=51.h5";
     "../Data_KF_debug/K3_1LF_n1=401_n2=201_n3=51_Gamma=0.200000_T=0.010000_L_ini=19_nODE=1.h5";
     "../Data_KF_debug/K3_1LF_n1=401_n2=201_n3=51_Gamma=0.200000_T=0.010000_L_ini=19_nODE=1.h5_final"].
Proof. reflexivity. Qed.
(** a state remembering the temperature it was computed for *)
Example C68_start_hyp :
  let c := main_config default_switches false 3 1 1 (1 # 100) in
  fst ((fun (_ : config) (st : Q) => (true, st)) c (c_T c)) = true /\ (fun _ : string => @None (bool * Q)) "" = None.
Proof. split; reflexivity. Qed.

Print Assumptions C68_flow_partial.
Print Assumptions C68_flow_apart_partial.
Print Assumptions C68_parquet_partial.
Print Assumptions C68_perturbation_partial.
Print Assumptions C68_flow_distinct_partial.
Print Assumptions C68_temperature_refuted.
Print Assumptions C68_start_refuted.
Print Assumptions C68_gate_refuted.
Print Assumptions C68_interaction_refuted.
Print Assumptions C68_digits_refuted.
Print Assumptions C68_calls_partial.
Print Assumptions C68_gate_value_partial.
Print Assumptions C68_pt2_flow_partial.
Print Assumptions C68_scale_refuted.
Example C68_pt2_flow_hyp :
  let s := {| keldysh := true; debug_symmetries := true; sbe := false; particle_hole := true; max_class := 3; reg := 2;
    static_feedback := false; adaptive_grid := false; pt2_flow := true;
    n_BOS := 401; n_BOS2 := 201; n_BOS3 := 51; voltage := 0; L_ini := 198 # 10 |} in
  flow_file s (main_config s false 3 1 1 (1 # 100)) <> flow_file s (main_config s false 3 1 1 (1 # 50)).
Proof. vm_compute. discriminate. Qed.
Example C68_scale_hyp : (inject_Z 19 <= 198 # 10)%Q /\ (198 # 10 < inject_Z (19 + 1))%Q /\ (inject_Z 19 <= 192 # 10)%Q.
Proof. split; [|split]; vm_compute; congruence. Qed.
