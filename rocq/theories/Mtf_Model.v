(** The bubbles of Mlp_Model and Bse_Model (multiloop right-hand side, parquet iteration) with numbers in the Matsubara formalism at finite
    temperature: as [Msf_Model], with the bubble of [Mbt_Model] (bubble/bubble_function.hpp:422-430, 474-492) and the frequency conversions
    of the finite-temperature case (frequencies are integers in units of pi T, kept as rational numbers). *)
From Coq Require Import QArith.
From Verif Require Import Prelude Cplx Keld_Model Sym_Model Tab_Model Rd_Model Dec_Model Bub_Model Mbt_Model Sf_Model Msf_Model.
From Verif Require Mbu_Model Mlp_Model Bse_Model.
Open Scope Z_scope.

Section Numbers.
  Variables (c : cfg) (pos : Z) (tails : Q -> (Q -> cplx) -> cplx) (pi T : Q).
  (** one entry of the bubble, for given parts on the left and on the right *)
  Definition tproduct (P : mpair) (r : Mlp_Model.channel) (L R : data) : data := fun spin iK f =>
    let '(w, v, vp) := f in let ch := chan_of r in
    let F := fun vpp => or0 (
      Pi <- value_Matsubara c ch (m_diff P) (m_g P) (m_s P) w vpp ;;
      Some (Mbu_Model.sum_over_internal_scalar ch spin (fun sp => L sp iK (w, v, vpp)) (fun sp => R sp iK (w, vpp, vp)) Pi)) in
    (Mbu_Model.bubble_value_prefactor pi ch * Cofq (2 * pi) * Cofq T * frequency_sum pos w F +
     Mbu_Model.bubble_value_prefactor pi ch * Cofq (2 * pi) * Cofq T * tails w F)%C.
  Definition tcross (r' r : Mlp_Model.channel) (x : data) : data := fun s iK f =>
    match transfToR true (chan_of r') (Bch (chan_of r)) f with Some g => x s iK g | None => C0 end.
  Definition tbubble_of : mpair -> Mlp_Model.channel -> Mlp_Model.kclass -> Mlp_Model.operand data -> Mlp_Model.operand data -> data :=
    Bse_Model.bub data mpair dzero dadd tproduct tcross no_mirror true.
  (** right_hand_sides.hpp:173-560 *)
  Definition finite_T_rhs (B : Type) := Mlp_Model.rhs_n_loop_flow data dzero dadd dhalf mpair tbubble_of 3 true B.
  (** parquet_solver.hpp:27-58, 478-485 *)
  Definition finite_T_parquet (U : Q) (v : Mlp_Model.vertex data) (P : mpair) : Mlp_Model.vertex data :=
    Bse_Model.parquet_iteration_vertex data mpair dzero dadd dhalf tproduct tcross no_mirror (lift c) true (keldysh c) (contour c) U v P.
End Numbers.
