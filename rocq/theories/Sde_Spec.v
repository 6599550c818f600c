(** Specification: the second term of the Schwinger-Dyson equation as a diagram of labelled legs. *)
From Coq Require Import QArith.
From Verif Require Import Prelude Cplx Keld_Model Keld_Spec Util_Spec Sym_Model Tab_Model Rd_Model Bub_Spec Sf_Model Sf_Spec.
From Verif Require Lop_Spec Skp_Spec Mlp_Model.
Open Scope Z_scope.
Import Lop_Spec (vertex_legs).

(** Two lines with frequencies f3 and fL run from the right to the left vertex, one with frequency f3 + fL - x back. External legs:
    frequency x, Keldysh indices a' (outgoing) and a (incoming). The three lines carry the spins up, down and down. *)
Definition back (x f3 fL : Q) : Q := (f3 + fL - x)%Q.
Definition sde_diagram (g : prop) (VL VR : vertex_legs) (x : Q) (a' a : bool) (f3 fL : Q) : cplx :=
  let f4 := back x f3 fL in
  sum4 (fun x3 x4 x3' x4' => csum bits (fun xL => csum bits (fun xL' =>
    (VL 0 (mkLegs x f4 f3 fL) (code4 a' x4' x3 xL) * (Gmat g f3 x3 x3' * Gmat g fL xL xL' * Gmat g f4 x4 x4') *
     VR 0 (mkLegs f3 fL x f4) (code4 x3' xL' a x4))%C))).
(** the frequencies of the lines f3 and fL when the frequency [vp] of one line is integrated last: of fL (a), of the one that runs back (p),
    of f3 (t) *)
Definition line_frequencies (ch : chan) (x vp vpp : Q) : Q * Q :=
  match ch with
  | Ca => (vpp - (vp - x) / 2, vp)
  | Cp => (vpp + (x + vp) / 2, (x + vp) / 2 - vpp)
  | Ct => (vp, vpp - (vp - x) / 2)
  end%Q.
(** 1/(2 pi i): prefactor of a frequency integral of the Keldysh formalism (up to the sign) *)
Definition prefactor (pi : Q) : cplx := (C1 / (Cofq (2 * pi) * Ci))%C.
Definition both_integrals (Jl J : (Q -> cplx) -> cplx) (pi : Q) (ch : chan) (x : Q) (F : Q -> Q -> cplx) : cplx :=
  Jl (fun vp => prefactor pi * J (fun vpp => let '(f3, fL) := line_frequencies ch x vp vpp in F f3 fL))%C.
(** the value does not depend on the choice of the integration variables *)
Definition order_irrelevant (Jl J : (Q -> cplx) -> cplx) (pi x : Q) (F : Q -> Q -> cplx) : Prop :=
  (both_integrals Jl J pi Ca x F == both_integrals Jl J pi Cp x F)%C /\ (both_integrals Jl J pi Ca x F == both_integrals Jl J pi Ct x F)%C.
(** the bare vertex: a product of two operators at one time; its components with an odd number of indices 2 are u, and -u for exchanged spins *)
Definition bare_legs (u : Q) : vertex_legs := fun s _ k =>
  let odd := xorb (xorb (Z.testbit k 0) (Z.testbit k 1)) (xorb (Z.testbit k 2) (Z.testbit k 3)) in
  if odd then Cofq (if s =? 0 then u else - u) else C0.
(** symmetrised with respect to the bare vertex on the left and on the right *)
Definition sde_pair (g : prop) (u : Q) (V : vertex_legs) (x : Q) (a' a : bool) (f3 fL : Q) : cplx :=
  Cscale (1 # 2) (sde_diagram g (bare_legs u) V x a' a f3 fL + sde_diagram g V (bare_legs u) x a' a f3 fL)%C.
Definition sde_value (Jl J : (Q -> cplx) -> cplx) (pi : Q) (ch : chan) (g : prop) (u : Q) (V : vertex_legs) (x : Q) (a' a : bool) : cplx :=
  both_integrals Jl J pi ch x (sde_pair g u V x a' a).
(** the reducible vertex of one channel, the full vertex, and the bare vertex with one channel only, as functions of the legs *)
Definition reducible (v : vert) (ch : chan) : vertex_legs := fun s l k =>
  let x q := class_of (channel_of v ch) q s k (natural ch l) in (x k1 + x k2 + x k2b + x k3)%C.
Definition bare_part (v : vert) : vertex_legs := fun s _ k => Mlp_Model.irr _ v s k (0, 0, 0)%Q.
Definition full_vertex (v : vert) : vertex_legs := fun s l k => (bare_part v s l k + reducible v Ca s l k + reducible v Cp s l k + reducible v Ct s l k)%C.
Definition bare_and (v : vert) (ch : chan) : vertex_legs := fun s l k => (bare_part v s l k + reducible v ch s l k)%C.
