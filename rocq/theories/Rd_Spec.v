(** Specification for reading a vertex through its symmetries: a family of reducible vertices that obeys crossing and
    complex conjugation on its four labelled legs. *)
From Coq Require Import QArith.
From Verif Require Import Prelude Cplx Keld_Model Util_Spec Sym_Model Sym_Spec Tab_Model Tab_Spec Rd_Model.
Open Scope Z_scope.

(** a channel splits the four legs into two pairs. A permutation of the legs carries the pairs of channel ch to the pairs
    of channel ch'; [fl]: the left pair becomes the right pair *)
Definition same_legs (p q : Z * Z) : bool :=
  ((fst p =? fst q) && (snd p =? snd q)) || ((fst p =? snd q) && (snd p =? fst q)).
Definition carried (P : klegs -> klegs) (ch ch' : chan) (fl : bool) : Prop :=
  let id := mkK 1 2 3 4 in
  let l := left_pair ch id in let r := right_pair ch id in
  let l' := left_pair ch' (P id) in let r' := right_pair ch' (P id) in
  (if fl then same_legs l r' && same_legs r l' else same_legs l l' && same_legs r r') = true.
(** exchanging left and right exchanges K2 (bare vertex on the right) and K2' (on the left) *)
Definition mirror (fl : bool) (k : kcl) : kcl :=
  if fl then match k with k2 => k2b | k2b => k2 | _ => k end else k.

(** A family [G]: half 1 (false) or half 2 (true), which is the mirror image of half 1; channel; class; spin component;
    Keldysh indices and frequencies of the legs. Exchange of two legs of the same kind gives a minus sign and exchanges
    the spin components. The vertices lambda of the single-boson exchange (class K2 with sbe) are quotients of two vertices
    and do not change sign. *)
Definition family := bool -> chan -> kcl -> Z -> klegs -> legs -> cplx.
Definition exchange_sign (sbe : bool) (k : kcl) : Q :=
  match k with k2 | k2b => if sbe then 1%Q else (-1)%Q | _ => (-1)%Q end.
(** complex conjugation in the Keldysh basis: (-1)^(1 + sum of Keldysh indices), without the 1 for a quotient *)
Definition conjugation_sign (sbe : bool) (k : kcl) (kl : klegs) : Q :=
  match k with k2 | k2b => if sbe then (- conj_factor kl)%Q else conj_factor kl | _ => conj_factor kl end.
(** the frequencies a class depends on: the transfer frequency, and v (v') unless there is a bare vertex on that side *)
Definition same_class_freqs (k : kcl) (f f' : Q * Q * Q) : Prop :=
  let '(w, v, v') := f in let '(x, y, y') := f' in
  (w == x)%Q /\ match k with k1 => True | k2 => v == y | k2b => v' == y' | k3 => v == y /\ v' == y' end%Q.
Record physical (c : cfg) (sbe : bool) (G : family) : Prop := {
  of_class_freqs : forall h ch k s kl f f' l l', klegs_ok kl -> s = 0 \/ s = 1 -> legs_are (mf c) ch f l -> legs_are (mf c) ch f' l' ->
    same_class_freqs k f f' -> (G h ch k s kl l == G h ch k s kl l')%C;
  exchange_in : forall h ch ch' fl k s kl l, carried swap_in_k ch ch' fl -> klegs_ok kl -> conserved l -> s = 0 \/ s = 1 ->
    (G h ch k s kl l == Cscale (exchange_sign sbe k)
       (G (xorb h fl) ch' (mirror fl k) (1 - s)%Z (swap_in_k kl) (swap_in_f l)))%C;
  exchange_out : forall h ch ch' fl k s kl l, carried swap_out_k ch ch' fl -> klegs_ok kl -> conserved l -> s = 0 \/ s = 1 ->
    (G h ch k s kl l == Cscale (exchange_sign sbe k)
       (G (xorb h fl) ch' (mirror fl k) (1 - s)%Z (swap_out_k kl) (swap_out_f l)))%C;
  conjugation_keldysh : keldysh c = true ->
    forall h ch ch' fl k s kl l, carried in_out_k ch ch' fl -> klegs_ok kl -> conserved l -> s = 0 \/ s = 1 ->
    (G h ch k s kl l == Cscale (conjugation_sign sbe k kl)
       (Cconj (G (xorb h fl) ch' (mirror fl k) s (in_out_k kl) (in_out_f l))))%C;
  conjugation_matsubara : keldysh c = false ->
    forall h ch ch' fl k s kl l, carried in_out_k ch ch' fl -> conserved l -> s = 0 \/ s = 1 ->
    (G h ch k s kl l == Cconj (G (xorb h fl) ch' (mirror fl k) s kl (minus_f (in_out_f l))))%C;
  (** with particle-hole symmetry the imaginary-frequency vertices are real *)
  real_matsubara : keldysh c = false -> phs c = true ->
    forall h ch k s kl l, (im (G h ch k s kl l) == 0)%Q }.

(** without Keldysh structure all four indices are 1 *)
Definition klegs_for (c : cfg) (kl : klegs) : Prop := klegs_ok kl /\ (keldysh c = false -> kl = mkK 1 1 1 1).
(** an rvert holds half h of channel ch: spin 0 of K1, K2, K3; if all symmetries are switched off, both spins and K2' *)
Definition stores (c : cfg) (dbg : bool) (G : family) (h : bool) (ch : chan) (D : rv) : Prop :=
  channel D = ch /\
  forall s kl w v v' l, s = 0 \/ (dbg = true /\ s = 1) -> klegs_for c kl -> legs_are (mf c) ch (w, v, v') l ->
    (bK1 D s (kcode kl) w == G h ch k1 s kl l)%C /\
    (bK2 D s (kcode kl) w v == G h ch k2 s kl l)%C /\
    (dbg = true -> bK2b D s (kcode kl) w v' == G h ch k2b s kl l)%C /\
    (bK3 D s (kcode kl) w v v' == G h ch k3 s kl l)%C.
Definition stores_full (c : cfg) (dbg : bool) (G : family) (h : bool) (F : fullvert) : Prop :=
  stores c dbg G h Ca (avertex F) /\ stores c dbg G h Cp (pvertex F) /\ stores c dbg G h Ct (tvertex F).
(** the four arguments of a read in channel ch: the vertex itself, the vertex related by crossing, and the same for the
    mirror image; crossing exchanges the channels a and t *)
Definition crossed (ch : chan) : chan := match ch with Ca => Ct | Cp => Cp | Ct => Ca end.


(** position (row, column) of a Keldysh component in the matrix of a vertex in a bubble of channel B: the row is the pair of
    external legs, the column the pair at the bubble. The left vertex is
    (1',4'|3,2) in a, (1',2'|3,4) in p, (4',2'|3,2) in t; the right vertex is (3',2'|1,4), (3',4'|1,2), (1',3'|1,4). *)
Definition code (a b c d : Z) : Z := 8 * (a - 1) + 4 * (b - 1) + 2 * (c - 1) + (d - 1).
Definition slot (B : chan) (is_left : bool) (k : klegs) : Z :=
  match B, is_left with
  | Ca, true => code (a1' k) (a2 k) (a1 k) (a2' k)
  | Cp, true => code (a1' k) (a2' k) (a1 k) (a2 k)
  | Ct, true => code (a2' k) (a2 k) (a1 k) (a1' k)
  | Ca, false => code (a1 k) (a2' k) (a1' k) (a2 k)
  | Cp, false => code (a1 k) (a2 k) (a1' k) (a2' k)
  | Ct, false => code (a1 k) (a1' k) (a2' k) (a2 k)
  end.

(** ** contour basis: index 1 is the forward and 2 the backward branch *)
Definition other_branch (k : klegs) : klegs := mkK (3 - a1' k) (3 - a2' k) (3 - a1 k) (3 - a2 k).
(** components on the contour from components in the Keldysh basis, up to a positive factor: sum over the Keldysh indices
    with a minus sign for every leg on branch 2 with Keldysh index 1 *)
Definition weight (branch alpha : Z) : Q := if (branch =? 2) && (alpha =? 1) then (-1)%Q else 1%Q.
Definition on_contour (V : klegs -> cplx) (b : klegs) : cplx :=
  let i12 := [1; 2] in
  fold_right Cadd C0 (flat_map (fun x => flat_map (fun y => flat_map (fun z => map (fun t =>
    Cscale (weight (a1' b) x * weight (a2' b) y * weight (a1 b) z * weight (a2 b) t)%Q (V (mkK x y z t)))
    i12) i12) i12) i12).

(** ** frequency reversal *)
(** particle-hole symmetry relates a Keldysh vertex to its conjugate at reversed frequencies; imaginary-frequency vertices
    are conjugated when all frequencies are reversed *)
Record reversible (c : cfg) (G : family) : Prop := {
  reversal_keldysh : keldysh c = true -> phs c = true -> forall h ch k s kl l, klegs_ok kl -> conserved l -> s = 0 \/ s = 1 ->
    (G h ch k s kl l == Cscale (conj_factor kl) (Cconj (G h ch k s kl (minus_f l))))%C;
  reversal_matsubara : keldysh c = false -> forall h ch k s kl l, conserved l ->
    (G h ch k s kl l == Cconj (G h ch k s kl (minus_f l)))%C }.
(** components that vanish by causality (C19) *)
Definition causal (c : cfg) (G : family) : Prop := keldysh c = true ->
  forall h ch k s kl l, klegs_ok kl -> s = 0 \/ s = 1 -> vanishes false ch k kl = true -> (G h ch k s kl l == C0)%C.
(** a buffer holds half h of class k in channel ch at the points that are computed *)
Definition holds_sector (c : cfg) (G : family) (h : bool) (ch : chan) (k : kcl) (d : buffer) : Prop :=
  forall p kl l, computed c ch k p = Some true -> 0 <= ks p < 2 -> klegs_for c kl -> kK p = kcode kl ->
    legs_are (mf c) ch (kw p, kv1 p, kv2 p) l -> (d p == G h ch k (ks p) kl l)%C.
