(** The self-energy loop: loop/integrandSE.hpp, loop/loop.hpp, and the places where its result is
    combined with the Hartree value (perturbation_theory.hpp, parquet_solver.hpp, state.hpp).
    Values are complex rationals (Cplx.v).  The internal index i_in is only passed through and is
    dropped; a self-energy at one frequency is a function from the stored component (0 retarded,
    1 Keldysh, 2 the component that should vanish) to its value. *)
From Coq Require Import QArith.
From Verif Require Import Prelude Idx_Model Cplx Keld_Model.
Open Scope Z_scope.

(** The vertex as it is evaluated by the loop: channel of the natural parametrisation, spin
    component (0 or 1), Keldysh component, and the two fermionic frequencies at w = 0
    (VertexInput(iK, spin, 0, vp, v, i_in, channel)). *)
Definition vertexfn := chan -> Z -> Z -> Q -> Q -> cplx.
(** correlation_functions/four_point/vertex.hpp: the expanded vertex number 2 is the sum of the
    expanded vertices 0 and 1 (vertices_expanded_target[2]) *)
Definition spin_component (V : vertexfn) (ch : chan) (s k : Z) (v v' : Q) : cplx :=
  if s =? 2 then (V ch 0 k v v' + V ch 1 k v v')%C else V ch s k v v'.

(** integrandSE.hpp:17-20; [version] = false for 0, true for 1 *)
Definition pick_channel (version : bool) : chan := if version then Ca else Ct.
Definition pick_spin (version : bool) (ispin : Z) : Z := if version then 2 - ispin else ispin.

(** ** IntegrandSE with SWITCH_SUM_N_INTEGRAL 1 *)

(** 386-391 evaluate_propagator_vectorized: the row (G00, G01, G10, G11) with the entries 1 and 2
    swapped *)
Definition evaluate_propagator_vectorized (contour : bool) (g : prop) (vp : Q) : list cplx :=
  let m := if contour then valsmooth_vectorized_contour g vp else valsmooth_vectorized g vp in
  [mget m 0 0; mget m 1 0; mget m 0 1; mget m 1 1].

(** the 4x4 matrix of the (right) expanded vertex; the rotation never fails (C14) and the value
    for a failed assertion is not observed *)
Definition fetch (V : vertexfn) (ch : chan) (s : Z) (vp v : Q) : mat :=
  match symmetry_expanded ch false (fun k => spin_component V ch s k vp v) with
  | Some l => resize44 l
  | None => []
  end.
Definition mscale (x : Q) (a : mat) : mat := mk4 (fun i j => Cscale x (mget a i j)).
(** 413-446 evaluate_vertex_vectorized *)
Definition evaluate_vertex_vectorized (version all_spins : bool) (V : vertexfn) (vp v : Q) : mat :=
  let ch := pick_channel version in
  if all_spins then
    madd (mscale 2 (fetch V ch (pick_spin version 0) vp v)) (fetch V ch (pick_spin version 1) vp v)
  else fetch V ch (pick_spin version 0) vp v.

(** row times matrix, entry j *)
Definition rowmat (r : list cplx) (m : mat) (j : nat) : cplx :=
  (nth 0 r C0 * mget m 0 j + nth 1 r C0 * mget m 1 j
   + nth 2 r C0 * mget m 2 j + nth 3 r C0 * mget m 3 j)%C.
Definition rowmats (r : list cplx) (m : mat) : list cplx := map (rowmat r m) [0; 1; 2; 3]%nat.

(** 101-104 transform_to_KeldyshBasis *)
Definition transform_to_KeldyshBasis : mat :=
  let h := Cofq (1 # 2) in let n := Cofq (- 1 # 2) in
  [ [h; h; h; h]; [n; h; n; h]; [n; n; h; h]; [h; n; n; h] ].

(** 303-325 Keldysh_value with a return type of four entries: entry j of the row *)
Definition Keldysh_value_vector (contour version all_spins : bool) (V : vertexfn) (g : prop) (v : Q)
  (vp : Q) (j : nat) : cplx :=
  let G1 := evaluate_propagator_vectorized contour g vp in
  let G2 := evaluate_propagator_vectorized contour g (- vp) in
  let V1 := evaluate_vertex_vectorized version all_spins V vp v in
  let V2 := evaluate_vertex_vectorized version all_spins V (- vp) v in
  if contour then
    Cscale (1 # 2) (rowmat (rowmats G1 V1) transform_to_KeldyshBasis j
                    + rowmat (rowmats G2 V2) transform_to_KeldyshBasis j)%C
  else Cscale (1 # 2) (rowmat G1 V1 j + rowmat G2 V2 j)%C.
(** 303-313 with a scalar return type: the vertex is fetched from i0 = 4*type on, which is column
    [type] of the same matrix; no change of basis *)
Definition Keldysh_value_scalar (contour version all_spins : bool) (V : vertexfn) (g : prop) (v : Q)
  (type : nat) (vp : Q) : cplx :=
  Cscale (1 # 2)
    (rowmat (evaluate_propagator_vectorized contour g vp)
            (evaluate_vertex_vectorized version all_spins V vp v) type
     + rowmat (evaluate_propagator_vectorized contour g (- vp))
              (evaluate_vertex_vectorized version all_spins V (- vp) v) type)%C.

(** ** IntegrandSE with SWITCH_SUM_N_INTEGRAL 0, version 0 (closed above) *)

(** 130-177 set_Keldysh_components_to_be_calculated; [None]: the assertion fails, unless assertions
    are switched off ([ndebug]) *)
Definition components0 (contour ndebug : bool) (type : Z) : option (list Z) :=
  if negb contour then
    if type =? 2 then Some [3; 6; 7; 3; 9; 11]
    else if (type =? 0) || ndebug then Some [1; 4; 5; 2; 8; 10] else None
  else if type =? 0 then Some [0; 4; 1; 5]
  else if type =? 1 then Some [2; 6; 3; 7]
  else if type =? 2 then Some [8; 12; 9; 13]
  else if (type =? 3) || ndebug then Some [10; 14; 11; 15] else None.
(** 356-375 evaluate_propagator (contour basis: propagator.hpp valsmooth(iK) with iK = 2*row+column) *)
Definition evaluate_propagator (contour : bool) (g : prop) (iK : nat) (vp : Q) : cplx :=
  if contour then mget (valsmooth_vectorized_contour g vp) (Nat.div iK 2) (Nat.modulo iK 2)
  else match iK with
       | 0%nat => gR g vp
       | 1%nat => Cconj (gR g vp)
       | _ => gK g vp
       end.
(** 404-410 evaluate_vertex and 326-334 Keldysh_value for one component of the propagator *)
Definition Keldysh_value_component (contour : bool) (comps : list Z) (spin : Z) (V : vertexfn) (g : prop)
  (v : Q) (iK : nat) (vp : Q) : cplx :=
  let k := nth iK comps 0 in
  Cscale (1 # 2) (evaluate_propagator contour g iK vp * spin_component V Ct spin k vp v
                  + evaluate_propagator contour g iK (- vp) * spin_component V Ct spin k (- vp) v)%C.

(** ** LoopCalculator::compute_Keldysh, loop.hpp:130-415 *)

(** the stored components of the self-energy at one frequency *)
Definition selfval := Z -> cplx.
Definition setself (s : selfval) (k : Z) (x : cplx) : selfval := fun j => if j =? k then x else s j.
Definition addself (s : selfval) (k : Z) (x : cplx) : selfval := setself s k (x + s k)%C.

(** [J f]: prefactor * integrator_Matsubara_T0(f).  A vector-valued integrand is integrated entry by
    entry (the common step-size control of the quadrature is not modelled). *)
Section Loop.
Variable J : (Q -> cplx) -> cplx.

(** SWITCH_SUM_N_INTEGRAL 1: lines 134-165 and 329-360 (vectorised), 166-221 and 361-380 (scalar).
    In the contour basis both blocks are executed, the second one writes the final values. *)
Definition compute_Keldysh_vector (contour version all_spins : bool) (V : vertexfn) (g : prop) (v : Q)
  (self : selfval) : selfval :=
  let value j := J (fun vp => Keldysh_value_vector contour version all_spins V g v vp j) in
  let integratedK := value 0%nat in
  let integratedR := Cconj (value 1%nat) in
  let s1 := setself (setself (setself self 0 integratedR) 1 integratedK) 2 (value 3%nat) in
  if contour then setself (setself (setself s1 2 (value 3%nat)) 0 integratedR) 1 integratedK else s1.
Definition compute_Keldysh_scalar (contour version all_spins : bool) (V : vertexfn) (g : prop) (v : Q)
  (self : selfval) : selfval :=
  let value type := J (Keldysh_value_scalar contour version all_spins V g v type) in
  if contour then
    let integrated00 := value 0%nat in let integrated10 := value 1%nat in
    let integrated01 := value 2%nat in let integrated11 := value 3%nat in
    let integratedR := Cscale (1 # 2) (integrated00 + integrated01 - integrated10 - integrated11)%C in
    let integratedK := Cscale (1 # 2) (integrated00 - integrated01 - integrated10 + integrated11)%C in
    let integratedZero := Cscale (1 # 2) (integrated00 + integrated01 + integrated11 + integrated10)%C in
    let s1 := setself self 2 integratedZero in
    setself (setself (setself s1 2 integratedZero) 0 integratedR) 1 integratedK
  else setself (setself (setself self 0 (value 2%nat)) 1 (value 0%nat)) 2 (value 3%nat).

(** SWITCH_SUM_N_INTEGRAL 0, Keldysh basis, version 0: lines 224-254 and 296-326, one block each;
    the calculator asks for the types 1 and 0 *)
Definition switch0_pass (all_spins : bool) (cR cK : list Z) (V : vertexfn) (g : prop) (v : Q) (iK : nat)
  (self : selfval) : selfval :=
  let value comps s := J (Keldysh_value_component false comps s V g v iK) in
  let both comps :=
    if all_spins then (Cscale 2 (value comps 0) + value comps 1)%C else value comps 0 in
  addself (addself self 0 (both cR)) 1 (both cK).
Definition switch0_block (all_spins : bool) (cR cK : list Z) (V : vertexfn) (g : prop) (v : Q)
  (self : selfval) : selfval :=
  fold_left (fun s iK => switch0_pass all_spins cR cK V g v iK s) [0; 1; 2]%nat self.
Definition compute_Keldysh_switch0 (ndebug all_spins : bool) (V : vertexfn) (g : prop) (v : Q)
  (self : selfval) : option selfval :=
  cR <- components0 false ndebug 1 ;;
  cK <- components0 false ndebug 0 ;;
  Some (switch0_block all_spins cR cK V g v (switch0_block all_spins cR cK V g v self)).

(** SWITCH_SUM_N_INTEGRAL 0, contour basis, version 0: lines 255-293 and 382-411 *)
Definition sum_components (all_spins : bool) (type : Z) (V : vertexfn) (g : prop) (v : Q) : option cplx :=
  comps <- components0 true false type ;;
  let value s iK := J (Keldysh_value_component true comps s V g v iK) in
  Some (fold_left (fun acc iK => (acc + (if all_spins then Cscale 2 (value 0 iK) + value 1 iK else value 0 iK))%C)
                  [0; 1; 2; 3]%nat C0).
Definition compute_Keldysh_switch0_contour (all_spins : bool) (V : vertexfn) (g : prop) (v : Q)
  (self : selfval) : option selfval :=
  integrated00 <- sum_components all_spins 0 V g v ;;
  integrated01 <- sum_components all_spins 1 V g v ;;
  integrated10 <- sum_components all_spins 2 V g v ;;
  integrated11 <- sum_components all_spins 3 V g v ;;
  let integratedR := Cscale (1 # 2) (integrated00 + integrated01 - integrated10 - integrated11)%C in
  let integratedK := Cscale (1 # 2) (integrated00 - integrated01 - integrated10 + integrated11)%C in
  let integratedZero := Cscale (1 # 2) (integrated00 + integrated01 + integrated11 + integrated10)%C in
  let block s := setself (setself (setself s 0 integratedR) 1 integratedK) 2 integratedZero in
  Some (block (block self)).

(** ** Matsubara: integrandSE.hpp:337-353, loop.hpp:417-447.  [J]: -1/(2 pi) times the integral at zero
    temperature, - T times the Matsubara sum at finite temperature. *)
Definition vertex_Matsubara (version all_spins : bool) (V : vertexfn) (vp v : Q) : cplx :=
  let ch := pick_channel version in
  if all_spins then (Cscale 2 (spin_component V ch (pick_spin version 0) 0 vp v)
                     + spin_component V ch (pick_spin version 1) 0 vp v)%C
  else spin_component V ch (pick_spin version 0) 0 vp v.
Definition Matsubara_value (phs version all_spins : bool) (V : vertexfn) (GM : Q -> cplx) (v vp : Q) : cplx :=
  let x := (GM vp * vertex_Matsubara version all_spins V vp v)%C in
  if phs then (- x)%C else x.
Definition compute_Matsubara (phs version all_spins : bool) (V : vertexfn) (GM : Q -> cplx) (v : Q)
  (self : selfval) : selfval :=
  setself self 0 (J (Matsubara_value phs version all_spins V GM v)).
End Loop.

(** ** loop(), loop.hpp:485-530 *)

(** the self-energy on its frequency grid: values per component and frequency number, and the
    asymptotic value of the retarded component *)
Record selfenergy := SE { Sigma : Z -> Z -> cplx; asymp_val_R : cplx }.
(** selfenergy.hpp: operator*= *)
Definition scaleSE (x : Q) (s : selfenergy) : selfenergy :=
  SE (fun k iv => Cscale x (Sigma s k iv)) (Cscale x (asymp_val_R s)).
Definition addSE (a b : selfenergy) : selfenergy :=
  SE (fun k iv => (Sigma a k iv + Sigma b k iv)%C) (asymp_val_R a + asymp_val_R b)%C.

(** [calc iv s]: what LoopCalculator writes at the frequency number iv, given the stored components
    there; [None] as frequency: not finite, nothing is written.  One pass over all frequencies; the
    order is irrelevant as each writes only its own frequency. *)
Definition run_loop (nFER : Z) (freq : Z -> option Q) (calc : Q -> selfval -> selfval) (s : selfenergy) : selfenergy :=
  SE (fun k iv => if (0 <=? iv) && (iv <? nFER)
                  then match freq iv with
                       | Some v => calc v (fun k => Sigma s k iv) k
                       | None => Sigma s k iv
                       end
                  else Sigma s k iv) (asymp_val_R s).
Definition loop (phs version : bool) (nFER : Z) (freq : Z -> option Q) (calc : Q -> selfval -> selfval)
  (self : selfenergy) : selfenergy :=
  let self := scaleSE (if version then -1 else 1) (run_loop nFER freq calc self) in
  if phs then self else
    let asymp_val := Cscale (1 # 2) (Sigma self 0 0 + Sigma self 0 (nFER - 1))%C in
    SE (fun k iv => if (k =? 0) && (0 <=? iv) && (iv <? nFER)
                    then (Cofq (- re asymp_val) + Sigma self k iv)%C else Sigma self k iv)
       (Cofq (re asymp_val)).

(** ** Users of the loop *)

(** perturbation_theory.hpp:58-72 selfEnergyInSOPT: [loop_a]: the loop over the a-bubble of the bare
    vertex, closed with the bare propagator *)
Definition selfEnergyInSOPT (loop_a : selfenergy -> selfenergy) (bare PsiSelfEnergy : selfenergy) : selfenergy :=
  SE (Sigma (loop_a PsiSelfEnergy)) (asymp_val_R bare).

(** state.hpp:250-290 State::initialize: the asymptotic value of a new state
    ([hartree]: the value found by the Hartree solver).  The stored values are zero. *)
Definition initialize_state (keldysh phs : bool) (U : Q) (hartree : Q) : selfenergy :=
  SE (fun _ _ => C0)
     (Cofq (if phs then (if keldysh then U * (1 # 2) else 0)%Q else hartree)).
(** perturbation_theory.hpp:145-185 sopt_state(Psi, diff): the bare state is a new one *)
Definition sopt_state (keldysh phs : bool) (U hartree : Q) (loop_a : selfenergy -> selfenergy)
  (Psi : selfenergy) : selfenergy :=
  selfEnergyInSOPT loop_a (initialize_state keldysh phs U hartree) Psi.
(** 192-256 topt_state, fopt_state: SoptPsi starts from an empty state
    (State(state, Lambda)); Psi.selfenergy = bareState.selfenergy + SoptPsi.selfenergy *)
Definition zeroSE : selfenergy := SE (fun _ _ => C0) C0.
Definition topt_state (keldysh phs : bool) (U hartree : Q) (loop_a : selfenergy -> selfenergy) : selfenergy :=
  let bare := initialize_state keldysh phs U hartree in
  addSE bare (selfEnergyInSOPT loop_a bare zeroSE).

(** parquet_solver.hpp:327-352 compute_SDE: [parts]: the loops over the channels, combined by one of
    the versions into a self-energy; then SelfEnergy::initialize overwrites the asymptotic value *)
Definition compute_SDE (phs : bool) (U : Q) (hartree : Q) (parts : selfenergy) : selfenergy :=
  SE (Sigma parts) (Cofq (if phs then U * (1 # 2) else hartree)%Q).
(** 236-312 compute_SDE_v1, v2, v3 ([a p t] the loops over the three channels, [s0] the one with bare
    vertices only) *)
Definition SDE_v1 (a p t s0 : selfenergy) : selfenergy := addSE (addSE (addSE a p) t) (scaleSE (- (2)) s0).
Definition SDE_v2 (a p : selfenergy) : selfenergy := scaleSE (1 # 2) (addSE a p).

(** selfenergy.hpp:valsmooth on the grid points inside the box *)
Definition valsmooth_at (s : selfenergy) (k iv : Z) : cplx :=
  (Sigma s k iv + Cscale (inject_Z (1 - k)) (asymp_val_R s))%C.
