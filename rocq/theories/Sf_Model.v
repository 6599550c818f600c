(** The bubbles of Mlp_Model and Bse_Model (multiloop right-hand side, parquet iteration) with numbers: the data of one class of
    one channel are a function of spin component, Keldysh index and frequencies, two of them are connected by the bubble of
    Bub_Model (bubble/bubble_function.hpp:361-521, integrand.hpp:1160-1215), and a channel is read in the frequencies of another one
    with transfToR (frequency_conversions, C21-C23).
    Keldysh basis, DEBUG_SYMMETRIES 1 (the default: K2' is stored), MAX_DIAG_CLASS 3, no SBE decomposition.
    Simplified: no interpolation, the data are known at all frequencies; one internal index. *)
From Coq Require Import QArith.
From Verif Require Import Prelude Cplx Keld_Model Sym_Model Tab_Model Rd_Model Dec_Model Bub_Model.
From Verif Require Mlp_Model Bse_Model.
Open Scope Z_scope.

Definition data := Z -> Z -> Q * Q * Q -> cplx.
Definition dzero : data := fun _ _ _ => C0.
Definition dadd (x y : data) : data := fun s iK f => (x s iK f + y s iK f)%C.
Definition dsub (x y : data) : data := fun s iK f => (x s iK f - y s iK f)%C.
Definition dhalf (x : data) : data := fun s iK f => Cscale (1 # 2) (x s iK f).
(** Mlp_Model has its own channels, with the terminating zero of the literal "apt" as a fourth one *)
Definition chan_of (r : Mlp_Model.channel) : chan := match r with Mlp_Model.Cp => Cp | Mlp_Model.Ct => Ct | _ => Ca end.
(** a pair of propagators: differentiated or not, propagator, single-scale propagator *)
Record pair := mkP { p_diff : bool; p_g : prop; p_s : prop }.

Section Numbers.
  Variables (c : cfg) (J : (Q -> cplx) -> cplx) (pi : Q).
  (** one entry of the bubble, for given parts on the left and on the right *)
  Definition product (P : pair) (r : Mlp_Model.channel) (L R : data) : data := fun spin iK f =>
    let '(w, v, vp) := f in let ch := chan_of r in
    (bubble_value_prefactor pi ch * J (fun vpp => or0 (
       l <- integrand_vectorized ch spin (fun sp i => L sp i (w, v, vpp)) (fun sp i => R sp i (w, vpp, vp))
              (value_vectorized ch (p_diff P) (p_g P) (p_s P) w vpp) ;;
       nth_error l (Z.to_nat iK))))%C.
  Definition cross (r' r : Mlp_Model.channel) (x : data) : data := fun s iK f =>
    match transfToR false (chan_of r') (Bch (chan_of r)) f with Some g => x s iK g | None => C0 end.
  (** vertex.hpp initialize *)
  Definition lift (q : Q) : data := fun s iK _ => irred_expanded (irred_initialize c (Cofq q)) s iK.
  Definition no_mirror (r : Mlp_Model.channel) (x : data) : data := x.

  Definition bubble_of : pair -> Mlp_Model.channel -> Mlp_Model.kclass -> Mlp_Model.operand data -> Mlp_Model.operand data -> data :=
    Bse_Model.bub data pair dzero dadd product cross no_mirror true.
  (** right_hand_sides.hpp:173-560 *)
  Definition multiloop_rhs (B : Type) := Mlp_Model.rhs_n_loop_flow data dzero dadd dhalf pair bubble_of 3 true B.
  (** parquet_solver.hpp:27-58, 478-485 *)
  Definition parquet_vertex (U : Q) (v : Mlp_Model.vertex data) (P : pair) : Mlp_Model.vertex data :=
    Bse_Model.parquet_iteration_vertex data pair dzero dadd dhalf product cross no_mirror lift true (keldysh c) (contour c) U v P.
End Numbers.
