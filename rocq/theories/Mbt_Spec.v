(** Specification for bubbles of symmetric vertices in the Matsubara formalism at finite temperature. *)
From Coq Require Import QArith Qround.
From Verif Require Import Prelude Cplx Keld_Model Util_Spec Sym_Model Sym_Spec Tab_Model Tab_Spec Rd_Model Rd_Spec Dec_Model Bub_Model Bub_Spec.
From Verif Require Mbt_Model.
Open Scope Z_scope.

(** the legs carry odd multiples of pi T *)
Definition matsubara_legs (l : legs) : Prop :=
  conserved l /\ fermionic (n1' l) /\ fermionic (n2' l) /\ fermionic (n1 l) /\ fermionic (n2 l).
(** half 1 (false) or half 2 (true), channel, class, spin component, frequencies of the legs; see [family] *)
Definition vertex_T := bool -> chan -> kcl -> Z -> legs -> cplx.
Record symmetric_T (ph : bool) (G : vertex_T) : Prop := {
  T_class_freqs : forall h ch k s f f' l l', (s = 0 \/ s = 1) -> matsubara_legs l -> matsubara_legs l' -> legs_mf ch f l -> legs_mf ch f' l' ->
    same_class_freqs k f f' -> (G h ch k s l == G h ch k s l')%C;
  T_exchange_in : forall h ch ch' fl k s l, carried swap_in_k ch ch' fl -> matsubara_legs l -> (s = 0 \/ s = 1) ->
    (G h ch k s l == - G (xorb h fl) ch' (mirror fl k) (1 - s)%Z (swap_in_f l))%C;
  T_exchange_out : forall h ch ch' fl k s l, carried swap_out_k ch ch' fl -> matsubara_legs l -> (s = 0 \/ s = 1) ->
    (G h ch k s l == - G (xorb h fl) ch' (mirror fl k) (1 - s)%Z (swap_out_f l))%C;
  T_conjugation : forall h ch ch' fl k s l, carried in_out_k ch ch' fl -> matsubara_legs l -> (s = 0 \/ s = 1) ->
    (G h ch k s l == Cconj (G (xorb h fl) ch' (mirror fl k) s (minus_f (in_out_f l))))%C;
  (** with particle-hole symmetry the vertices are real *)
  T_real : ph = true -> forall h ch k s l, (s = 0 \/ s = 1) -> matsubara_legs l -> (im (G h ch k s l) == 0)%Q }.
Definition reversible_T (G : vertex_T) : Prop := forall h ch k s l, (s = 0 \/ s = 1) -> matsubara_legs l ->
  (G h ch k s l == Cconj (G h ch k s (minus_f l)))%C.
Definition self_mirror_T (G : vertex_T) : Prop := forall ch k s l, (s = 0 \/ s = 1) -> matsubara_legs l -> (G true ch k s l == G false ch k s l)%C.
Definition operand_T (st : symmtype) (G : vertex_T) : Prop := is_diff st = false -> self_mirror_T G.
Definition reads_T (u : Q) (G : vertex_T) (h : bool) (V : reader) : Prop :=
  forall s, (s = 0 \/ s = 1) ->
    (forall ch k f l, matsubara_legs l -> legs_mf ch f l -> (get_r (V s 0) ch k f == G h ch k s l)%C) /\
    (irred (V s 0) == Cofq (if s =? 0 then u else - u))%C.
(** propagators, see [line_ok] *)
Definition line_T (ph : bool) (g : Q -> cplx) : Prop :=
  (forall x y, fermionic x -> (x == y)%Q -> (g x == g y)%C) /\
  forall v, fermionic v -> if ph then (im (g v) == 0)%Q /\ (g (- v)%Q == - g v)%C else (g (- v)%Q == Cconj (g v))%C.

(** A sum over the odd frequencies for a transfer frequency. The two lines carry v - lo and v + hi (lo and hi even, lo + hi = w);
    the reflection v -> - v - (hi - lo) exchanges them up to the sign. *)
Record sum_T (J : Q -> (Q -> cplx) -> cplx) : Prop := {
  T_ext : forall w f g, (forall v, fermionic v -> f v == g v)%C -> (J w f == J w g)%C;
  T_opp : forall w f, (J w (fun v => - f v) == - J w f)%C;
  T_conj : forall w f, (J w (fun v => Cconj (f v)) == Cconj (J w f))%C;
  T_reflect : forall w lo hi f g, half_split w lo hi ->
    (forall v v', fermionic v -> (v' == - v - (hi - lo))%Q -> f v == g v')%C -> (J w f == J w g)%C;
  T_even : forall w w' f, bosonic w -> (w' == w \/ w' == - w)%Q -> (J w' f == J w f)%C }.

(** the natural frequencies of four legs: half the transfer frequency is rounded down to an even number *)
Definition lo (w : Q) : Q := inject_Z (2 * Qfloor (w / 4)).
Definition hi (w : Q) : Q := (w - lo w)%Q.
Definition natural_T (ch : chan) (l : legs) : Q * Q * Q :=
  let w := transfer ch l in
  match ch with
  | Ca => (w, n1' l + lo w, n1 l + lo w)
  | Cp => (w, lo w - n2' l, lo w - n2 l)
  | Ct => (w, n2' l + lo w, n1 l + lo w)
  end%Q.
(** the bubbles of a left vertex and a right vertex, see [bubble_family] *)
Definition bubbles_T (c : cfg) (pos : Z) (tails : Q -> (Q -> cplx) -> cplx) (pi T : Q) (diff : bool) (g s : Q -> cplx) (stL stR : symmtype)
    (VL VR : bool -> reader) : vertex_T := fun h ch k spin l =>
  if h then Mbt_Model.bubble_entry c pos tails pi T k ch diff g s stR stL (VR true) (VL true) spin (natural_T ch l)
  else Mbt_Model.bubble_entry c pos tails pi T k ch diff g s stL stR (VL false) (VR false) spin (natural_T ch l).
