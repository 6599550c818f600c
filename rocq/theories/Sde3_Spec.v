(** Version 3 of the Schwinger-Dyson equation: one class of diagrams of one channel, closed by a loop. *)
From Coq Require Import QArith.
From Verif Require Import Prelude Cplx Keld_Model Keld_Spec Keld_Proofs2 Util_Spec Sym_Model Sym_Spec Tab_Model Rd_Model Rd_Spec Dec_Model Bub_Model Bub_Spec Sf_Model Sf_Spec
  Fl_Model Sde_Model Sde_Spec.
From Verif Require Mlp_Model Lop_Spec.
Open Scope Z_scope.
Import Lop_Spec (vertex_legs, leg_freqs, contraction).

(** the part of a channel that does not depend on the frequencies of the legs on the right *)
Definition left_part (v : vert) (ch : chan) : vertex_legs := fun s l k =>
  (class_of (channel_of v ch) k1 s k (natural ch l) + class_of (channel_of v ch) k2 s k (natural ch l))%C.
(** numbers that only depend on the values of the frequencies *)
Definition values_ok (v : vert) : Prop := forall ch k s a b d e f f', (s = 0 \/ s = 1) -> trip_eq f f' ->
  (class_of (channel_of v ch) k s (code4 a b d e) f == class_of (channel_of v ch) k s (code4 a b d e) f')%C.
Definition has_bare (u : Q) (v : vert) : Prop := forall s l a b d e, (s = 0 \/ s = 1) -> (bare_part v s l (code4 a b d e) == bare_legs u s l (code4 a b d e))%C.
(** the bubble of two vertices in channel ch *)
Definition one_bubble (J : (Q -> cplx) -> cplx) (pi : Q) (g : prop) (A B : vertex_legs) (ch : chan) (s : Z) (l : legs) (a b d e : bool) : cplx :=
  let '(w, v, v') := natural ch l in
  (Cscale (match ch with Ct => -1 | _ => 1 end) (prefactor pi) * J (fun vpp =>
     code_diagram ch s (fun t k => A t (legs_of ch (w, v, vpp)) k) (fun t k => B t (legs_of ch (w, vpp, v')) k) (lines ch false g g w vpp) a b d e))%C.
(** the vertex is the result of the Bethe-Salpeter equation with the vertex A on the left and the bare vertex on the right *)
Definition bse_left (J : (Q -> cplx) -> cplx) (pi : Q) (g : prop) (u : Q) (A : vertex_legs) (ch : chan) (v : vert) : Prop :=
  forall s l a b d e, (s = 0 \/ s = 1) -> (left_part v ch s l (code4 a b d e) == one_bubble J pi g A (bare_legs u) ch s l a b d e)%C.
(** the diagram with the vertex A on the left and the bare vertex on the right, and its mirror image *)
Definition one_sided (Jl J : (Q -> cplx) -> cplx) (pi : Q) (ch : chan) (g : prop) (u : Q) (A : vertex_legs) (x : Q) (a' a : bool) : cplx :=
  both_integrals Jl J pi ch x (sde_diagram g A (bare_legs u) x a' a).
Definition mirrored (Jl J : (Q -> cplx) -> cplx) (pi : Q) (ch : chan) (g : prop) (u : Q) (A : vertex_legs) (x : Q) (a' a : bool) : cplx :=
  both_integrals Jl J pi ch x (sde_diagram g (bare_legs u) A x a' a).
(** the bare vertex closed by a line of the opposite spin: the Hartree diagram *)
Definition bare_loop (Jl : (Q -> cplx) -> cplx) (g : prop) (u : Q) (a' a : bool) : cplx :=
  Jl (fun vp => csum bits (fun y => csum bits (fun y' =>
    (Gmat g vp y y' * (if xorb (xorb a' a) (xorb y' y) then Cofq u else C0))%C))).
(** sums of vertices and of propagators with a real weight *)
Definition vplus (t : Q) (v w : vert) : vert :=
  let d (x y : data) : data := fun s k f => (x s k f + Cscale t (y s k f))%C in
  let r (x y : Mlp_Model.rvert data) := {| Mlp_Model.K1 := d (Mlp_Model.K1 _ x) (Mlp_Model.K1 _ y); Mlp_Model.K2 := d (Mlp_Model.K2 _ x) (Mlp_Model.K2 _ y);
                  Mlp_Model.K2b := d (Mlp_Model.K2b _ x) (Mlp_Model.K2b _ y); Mlp_Model.K3 := d (Mlp_Model.K3 _ x) (Mlp_Model.K3 _ y) |} in
  {| Mlp_Model.irr := d (Mlp_Model.irr _ v) (Mlp_Model.irr _ w); Mlp_Model.va := r (Mlp_Model.va _ v) (Mlp_Model.va _ w);
     Mlp_Model.vp := r (Mlp_Model.vp _ v) (Mlp_Model.vp _ w); Mlp_Model.vt := r (Mlp_Model.vt _ v) (Mlp_Model.vt _ w) |}.
Definition gplus (t : Q) (g h : prop) : prop := Prop_ (fun x => gR g x + Cscale t (gR h x))%C (fun x => gK g x + Cscale t (gK h x))%C.
