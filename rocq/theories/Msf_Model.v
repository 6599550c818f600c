(** The bubbles of Mlp_Model and Bse_Model (multiloop right-hand side, parquet iteration) with numbers in the Matsubara formalism at zero
    temperature: as [Sf_Model], with the bubble of [Mbu_Model] (bubble/bubble_function.hpp:363-414, integrand.hpp:854-998). There is only
    the Keldysh index 0. DEBUG_SYMMETRIES 1 (K2' and both spin components are stored), MAX_DIAG_CLASS 3, no SBE decomposition.
    Simplified: no interpolation, the data are known at all frequencies; one internal index. *)
From Coq Require Import QArith.
From Verif Require Import Prelude Cplx Keld_Model Sym_Model Tab_Model Rd_Model Dec_Model Bub_Model Mbu_Model Sf_Model.
From Verif Require Mlp_Model Bse_Model.
Open Scope Z_scope.

(** a pair of propagators: differentiated or not, propagator, single-scale propagator *)
Record mpair := mkM { m_diff : bool; m_g : Q -> cplx; m_s : Q -> cplx }.

Section Numbers.
  Variables (c : cfg) (J : (Q -> cplx) -> cplx) (pi : Q).
  (** one entry of the bubble, for given parts on the left and on the right *)
  Definition mproduct (P : mpair) (r : Mlp_Model.channel) (L R : data) : data := fun spin iK f =>
    let '(w, v, vp) := f in let ch := chan_of r in
    (Mbu_Model.bubble_value_prefactor pi ch * J (fun vpp =>
       sum_over_internal_scalar ch spin (fun sp => L sp iK (w, v, vpp)) (fun sp => R sp iK (w, vpp, vp))
         (value_Matsubara c ch (m_diff P) (m_g P) (m_s P) w vpp)))%C.
  Definition mbubble_of : mpair -> Mlp_Model.channel -> Mlp_Model.kclass -> Mlp_Model.operand data -> Mlp_Model.operand data -> data :=
    Bse_Model.bub data mpair dzero dadd mproduct cross no_mirror true.
  (** right_hand_sides.hpp:173-560 *)
  Definition matsubara_rhs (B : Type) := Mlp_Model.rhs_n_loop_flow data dzero dadd dhalf mpair mbubble_of 3 true B.
  (** parquet_solver.hpp:27-58, 478-485 *)
  Definition matsubara_parquet (U : Q) (v : Mlp_Model.vertex data) (P : mpair) : Mlp_Model.vertex data :=
    Bse_Model.parquet_iteration_vertex data mpair dzero dadd dhalf mproduct cross no_mirror (lift c) true (keldysh c) (contour c) U v P.
End Numbers.
