(** Model of reading a vertex through the symmetries (correlation_functions/four_point/r_vertex.hpp:380-517), of the
    symmetry expansion of a vertex before a bubble (r_vertex.hpp:833-972, vertex.hpp:794-824, 1225-1260, 2157-2163)
    and of the bare vertex (vertex.hpp:1183-1255).
    A buffer is the function that its interpolation returns ([interpolate], taken as given on all frequencies). Without
    SBE decomposition the template argument of Ti is false; [sbe] is SBE_DECOMPOSITION. *)
From Coq Require Import QArith.
From Verif Require Import Prelude Cplx Keld_Model Util_Model Sym_Model Tab_Model.
Open Scope Z_scope.

(** buffers of one rvert: arguments spin, Keldysh index and the frequencies that the class uses *)
Record rv := mkRv {
  channel : chan;
  bK1 : Z -> Z -> Q -> cplx;
  bK2 : Z -> Z -> Q -> Q -> cplx;
  bK2b : Z -> Z -> Q -> Q -> cplx;      (* exists only with DEBUG_SYMMETRIES *)
  bK3 : Z -> Z -> Q -> Q -> Q -> cplx }.
Record fullvert := mkFv { irred : Z -> cplx; avertex : rv; pvertex : rv; tvertex : rv }.
(** the part of VertexInput that matters *)
Record vinput := mkIn { in_iK : Z; in_spin : Z; in_w : Q; in_v1 : Q; in_v2 : Q }.

Definition ch_eqb (a b : chan) : bool :=
  match a, b with Ca, Ca => true | Cp, Cp => true | Ct, Ct => true | _, _ => false end.
(** the constructor of IndicesSymmetryTransformations, data_structures.hpp:585-613 *)
Definition indices_of (x : vinput) (ch : chan) : indices :=
  mkI (in_iK x) (in_spin x) (in_w x) (in_v1 x) (in_v2 x) 0 1%Q false false ch.
(** the template argument of Ti in 391, 414 *)
Definition lambda_class (sbe : bool) (k : kcl) : bool := match k with k2 | k2b => sbe | _ => false end.

(** r_vertex.hpp:412-441 symmetry_reduce; the overload of 383-408 is the case
    [half2_same = this], [half2_switched = crossing] *)
Definition symmetry_reduce (c : cfg) (sbe : bool) (k : kcl) (this crossing half2_same half2_switched : rv)
    (x : vinput) : option (indices * rv) :=
  t <- transformations (keldysh c) (channel this) k (in_spin x) ;;
  y <- Ti c (lambda_class sbe k) (indices_of x (channel this)) t ;;
  Some (y, if asymmetry_transform y
           then (if ch_eqb (channel this) (channel_rvert y) then half2_same else half2_switched)
           else (if ch_eqb (channel_rvert y) (channel this) then this else crossing)).
(** 460-480 read_value *)
Definition read_value (dbg : bool) (k : kcl) (y : indices) (r : rv) : cplx :=
  match k with
  | k1 => bK1 r (spin y) (iK y) (w y)
  | k3 => bK3 r (spin y) (iK y) (w y) (v1 y) (v2 y)
  | k2 => bK2 r (spin y) (iK y) (w y) (v1 y)
  | k2b => if dbg then bK2b r (spin y) (iK y) (w y) (v2 y) else bK2 r (spin y) (iK y) (w y) (v1 y)
  end.
(** 444-457 read_symmetryreduced_rvert *)
Definition read_symmetryreduced (c : cfg) (dbg : bool) (k : kcl) (y : indices) (r : rv) : option cplx :=
  if ch_eqb (channel_rvert y) (channel r) then
    let value := read_value dbg k y r in
    Some (Cscale (prefactor y) (if (keldysh c || negb (phs c)) && conjugate y then Cconj value else value))
  else None.
(** 505-517 valsmooth *)
Definition valsmooth (c : cfg) (sbe dbg : bool) (k : kcl) (this crossing half2_same half2_switched : rv)
    (x : vinput) : option cplx :=
  if dbg then Some (read_value dbg k (indices_of x (channel this)) this)
  else
    yr <- symmetry_reduce c sbe k this crossing half2_same half2_switched x ;;
    read_symmetryreduced c dbg k (fst yr) (snd yr).
(** 488-497, the overload for vertices that are their own mirror image *)
Definition valsmooth_symmetric (c : cfg) (sbe dbg : bool) (k : kcl) (this crossing : rv) (x : vinput) : option cplx :=
  valsmooth c sbe dbg k this crossing this crossing x.

(** vertex.hpp:2160-2162 with r_vertex.hpp:857-968: the entry with Keldysh index iK and frequencies f of the expanded
    buffer of class k in channel ch. A frequency that is not finite (None) is skipped for K1 and leaves the initial 0;
    for the other classes all frequencies are finite. Frequencies that the class does not have are 0 in the input. *)
Definition args (ch : chan) (h1 h2 : fullvert) : rv * rv * rv * rv :=
  match ch with
  | Ca => (avertex h1, tvertex h1, avertex h2, tvertex h2)
  | Cp => (pvertex h1, pvertex h1, pvertex h2, pvertex h2)
  | Ct => (tvertex h1, avertex h1, tvertex h2, avertex h2)
  end.
Definition expand_input (k : kcl) (iK s : Z) (f : Q * Q * Q) : vinput :=
  let '(w, v, v') := f in
  match k with
  | k1 => mkIn iK s w 0 0
  | k2 => mkIn iK s w v 0
  | k2b => mkIn iK s w 0 v'
  | k3 => mkIn iK s w v v'
  end%Q.
Definition symmetry_expand (c : cfg) (sbe dbg : bool) (ch_bubble : chan) (is_left : bool) (k : kcl) (ch : chan)
    (h1 h2 : fullvert) (s iK : Z) (f : option (Q * Q * Q)) : option cplx :=
  match k, f with
  | k1, None => Some C0
  | _, None => None
  | _, Some f =>
      r <- rotate_Keldysh_matrix ch_bubble is_left iK ;;
      let '(this, crossing, same, switched) := args ch h1 h2 in
      valsmooth c sbe dbg k this crossing same switched (expand_input k r s f)
  end.
(** vertex.hpp:794-822: spin 2 (both spins up) is the sum of the buffers of spin 0 and 1, entry by entry; [f0] and [f1]
    are the frequencies of the entry on the grids of the two buffers *)
Definition symmetry_expand_upup (c : cfg) (sbe dbg : bool) (ch_bubble : chan) (is_left : bool) (k : kcl) (ch : chan)
    (h1 h2 : fullvert) (iK : Z) (f0 f1 : option (Q * Q * Q)) : option cplx :=
  x <- symmetry_expand c sbe dbg ch_bubble is_left k ch h1 h2 0 iK f0 ;;
  y <- symmetry_expand c sbe dbg ch_bubble is_left k ch h1 h2 1 iK f1 ;;
  Some (x + y)%C.

(** ** the bare vertex *)
(** vertex.hpp:1237-1255 irreducible::initialize on a vertex that is zero otherwise (one internal index) *)
Definition irred_initialize (c : cfg) (val : cplx) : Z -> cplx := fun iK =>
  if keldysh c then
    if contour c then (if iK =? 0 then val else if iK =? 15 then (- val)%C else C0)
    else (if isInList iK odd_Keldysh then val else C0)
  else if iK =? 0 then val else C0.
(** vertex.hpp:1183-1200 irreducible::val *)
Definition irred_val (b : Z -> cplx) (iK s : Z) : option cplx :=
  if s =? 0 then Some (b iK) else if s =? 1 then Some (- b iK)%C else if s =? 2 then Some C0 else None.
(** vertex.hpp:2159 and 807: the bare vertex of the expanded vertex of spin s, read at 993, 1003 and 1587-1707 with
    input.spin = 0 *)
Definition irred_expanded (b : Z -> cplx) (s : Z) : Z -> cplx := fun iK =>
  if s =? 2 then (C0 * b iK)%C else (b iK * Cofq (if s =? 0 then 1 else -1))%C.
