(** Evaluation of result files. Model of postprocessing/postprocessing.c++:3-267, postprocessing.hpp:13-100 and causality_FDT_checks.c++:3-13.
    A result file is reduced to the number of Lambda layers it has room for, the number of the last layer written, and the states that can be read
    (how these come about is the subject of Hdf_Model.v). A read that fails raises an exception, which ends the evaluation: [None].
    What is computed from one state (bubbles, vertex values, norms) is an arbitrary function of that state. *)
From Coq Require Import QArith.
From Verif Require Import Prelude Cplx.
Open Scope Z_scope.

Definition zrange (n : Z) : list Z := map Z.of_nat (seq 0 (Z.to_nat n)).
(** for (unsigned int i = 0; i < n; ++i) with n of type int: n is converted to unsigned int; for (int i = 0; i < n; ++i); for (int i = 0; i <= n; ++i) *)
Definition below_unsigned (n : Z) : list Z := zrange (n mod 2 ^ 32).
Definition below (n : Z) : list Z := zrange n.
Definition upto (n : Z) : list Z := zrange (n + 1).

Section Layers.
  Variable S : Type.
  Record rfile := { nlambda : Z; last_it : Z; layer : Z -> option S }.
  (** hdf5_routines.c++:194-213, only the number of the last layer; a file that cannot be opened yields -1 *)
  Definition last_layer (d : option rfile) : Z := match d with Some f => last_it f | None => -1 end.
  (** hdf5_routines.c++:217-247: number of Lambda values *)
  Definition read_lambdas (d : option rfile) : option Z := f <- d ;; Some (nlambda f).
  Definition read_state (d : option rfile) (i : Z) : option S := f <- d ;; layer f i.
  Definition read_states (d : option rfile) (l : list Z) : option (list (Z * S)) := osequence (map (fun i => s <- read_state d i ;; Some (i, s)) l).

  (** writes into a vector; None: outside of the vector *)
  Fixpoint store {V} (a : list V) (w : list (Z * V)) : option (list V) :=
    match w with
    | [] => Some a
    | (i, x) :: w => a <- (if i <? 0 then None else oupd a (Z.to_nat i) x) ;; store a w
    end.
  Definition zeros {V} (z : V) (n : Z) : list V := repeat z (Z.to_nat n).

  (** *** the Ward identity: postprocessing.c++:3-60 *)
  Section Phi.
    Variable V : Type.
    Variables (zero : V) (nFER n_in : Z).
    (** frequency, -2 Im Sigma and Phi for (frequency index, internal index) in a state *)
    Variables (freq sigma phi : S -> Z -> Z -> V).
    Definition points : list (Z * Z) := flat_map (fun i_in => map (fun iv => (iv, i_in)) (below nFER)) (below n_in).
    Definition writes (index : Z -> Z -> Z -> Z) (value : S -> Z -> Z -> V) (ls : list (Z * S)) : list (Z * V) :=
      flat_map (fun '(i, s) => map (fun '(iv, i_in) => (index i iv i_in, value s iv i_in)) points) ls.
    (** 28 and 30: index of vs and ImSigma; 33: index of Phi *)
    Definition index_v (i iv i_in : Z) : Z := i * nFER + iv * n_in + i_in.
    Definition index_phi (i iv i_in : Z) : Z := i * nFER * n_in + iv * n_in + i_in.
    (** the three vectors written to the file *)
    Definition compute_Phi_tilde (d : option rfile) : option (list V * list V * list V) :=
      n <- read_lambdas d ;;
      ls <- read_states d (below_unsigned (last_layer d)) ;;
      let z := zeros zero (n * nFER * n_in) in
      v <- store z (writes index_v freq ls) ;;
      s <- store z (writes index_v sigma ls) ;;
      p <- store z (writes index_phi phi ls) ;;
      Some (v, s, p).
  End Phi.

  (** *** sum rule for K1t: postprocessing.c++:63-86. A vector of negative length cannot be allocated. *)
  Definition sum_rule_K1tK {V} (zero : V) (rule : S -> V) (d : option rfile) : option (list V) :=
    _ <- read_lambdas d ;;
    let m := last_layer d in
    if m <? 0 then None else
    ls <- read_states d (below m) ;;
    store (zeros zero m) (map (fun '(i, s) => (i, rule s)) ls).

  (** *** comparison with fluctuation-dissipation theorems: causality_FDT_checks.c++:3-13; the layers that are compared (and written) *)
  Definition compare_flow_with_FDTs {V} (cmp : S -> V) (d : option rfile) : option (list (Z * V)) :=
    _ <- read_lambdas d ;;
    ls <- read_states d (below_unsigned (last_layer d)) ;;
    Some (map (fun '(i, s) => (i, cmp s)) ls).

  (** *** postprocessing.c++:105-129: the states on which the Kramers-Kronig relation is to be checked (the call of the check itself is commented out) *)
  Definition kk_layers (n m : Z) : list Z :=
    if n =? 50 then [1; 5; 13; 16; 26; 32; 37; 41; 44; 47; 49; 51; 53; 56; 65]
    else if n =? 100 then [1; 8; 23; 29; 48; 59; 67; 74; 79; 83; 87; 90; 93; 98; 115]
    else below m.
  Definition check_Kramers_Kronig (d : option rfile) : option (list (Z * S)) :=
    n <- read_lambdas d ;;
    if negb (n =? 50) && negb (n =? 100) && (last_layer d <? 0) then None else
    read_states d (kk_layers n (last_layer d)).

  (** *** post-processed susceptibilities: postprocessing.c++:133-168. The output file is created anew (Some); a dataset with room for last+1 layers is
      created with the first layer written, later layers are added. Result: room and layers written in the (equal) datasets of the three channels, None inside:
      no dataset; the second component tells whether all went well. *)
  Fixpoint save_layers {V} (room : Z) (f : option (Z * list (Z * V))) (l : list (Z * V)) : option (Z * list (Z * V)) * bool :=
    match l with
    | [] => (f, true)
    | (i, x) :: l =>
        if room <=? i then (f, false)                                       (* assertion, hdf5_routines.hpp:195 *)
        else match f with
             | None => if 0 <? i then (f, false) else save_layers room (Some (room, [(i, x)])) l
             | Some (r, w) => if 0 <? i then save_layers room (Some (r, w ++ [(i, x)])) l else (f, false)
             end
    end.
  Definition susceptibilities {V} (chi : S -> V) (d : option rfile) : option (option (Z * list (Z * V)) * bool) :=
    ls <- read_states d (upto (last_layer d)) ;;
    Some (save_layers (last_layer d + 1) None (map (fun '(i, s) => (i, chi s)) ls)).

  (** *** slices through the vertex: postprocessing.c++:231-267; [npts]: number of frequencies of the first layer; index in row-major order *)
  Definition slices {V} (zero : V) (npts : S -> Z) (value : S -> Z -> Z -> Z -> V) (d : option rfile) : option (list V) :=
    s0 <- read_state d 0 ;;
    let n := npts s0 in
    let m := last_layer d in
    ls <- read_states d (upto m) ;;
    store (zeros zero ((m + 1) * n * n * 16))
      (flat_map (fun '(i, s) => flat_map (fun iv => flat_map (fun ivp => map (fun iK => (((i * n + iv) * n + ivp) * 16 + iK, value s iv ivp iK))
         (below 15)) (below n)) (below n)) ls).
End Layers.
Arguments nlambda {S}. Arguments last_it {S}. Arguments layer {S}.

(** ** the two sides of the Ward identity *)
Section Ward.
  Open Scope Q_scope.
  (** the frequency grid of the self-energy, its retarded component between the grid points, and the values of Phi of one layer *)
  Variables (w_upper : Q) (grid_index : Q -> Z) (frequency : Z -> Q) (Sigma : Q -> cplx).
  Definition Qltb (x y : Q) : bool := negb (Qle_bool y x).
  (** postprocessing.hpp:37-68, n_in = 1 *)
  Definition ward_integrand (Phi : Z -> Q) (vp : Q) : Q :=
    if Qltb (if Qltb vp 0 then - vp else vp) w_upper then
      let index := grid_index vp in
      let index := if Qltb (frequency index) (frequency (index + 1)%Z) then index else (index - 1)%Z in
      let x1 := frequency index in
      let x2 := frequency (index + 1)%Z in
      let xd := (vp - x1) / (x2 - x1) in
      let f1 := Phi index in
      let f2 := Phi (index + 1)%Z in
      im (Cofq ((1 - xd) * f1 + xd * f2) + Cscale 2 (Sigma vp))%C
    else 0.
  (** division of doubles; None: not a number or infinite *)
  Definition fdiv (a b : Q) : option Q := if Qeq_bool b 0 then None else Some (a / b).
  (** postprocessing.c++:37-46; [integral]: the integrator, which sees nothing but the values of the integrand *)
  Definition Phi_integrated (integral : (Q -> Q) -> Q) (Phi : Z -> Q) : option Q :=
    fdiv (integral (ward_integrand Phi)) (integral (ward_integrand (fun _ => 0))).
End Ward.

(** postprocessing.c++:19 and 24, postprocessing.hpp:24-31: the factor G^A G^R in the integrand of Phi, after the asymptotic value of the self-energy has been overwritten by U/2.
    propagator.hpp:235-246: the retarded propagator; [eps]: level, [Delta] = (Gamma+Lambda)/2, [dyn]: frequency-dependent part of the self-energy, [asymp]: its value at infinite frequency *)
Definition GR (eps Delta : Q) (dyn : Q -> cplx) (asymp : Q) (v : Q) : cplx := Cinv (Cplx (v - eps) Delta - (dyn v + Cofq asymp))%C.
Definition phi_weight (eps Delta U : Q) (dyn : Q -> cplx) (asymp : Q) (v : Q) : cplx :=
  let asymp := (U / (2 # 1))%Q in (Cconj (GR eps Delta dyn asymp v) * GR eps Delta dyn asymp v)%C.
