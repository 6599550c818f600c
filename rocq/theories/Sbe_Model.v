(** * Single-boson exchange decomposition of the vertex (SBE_DECOMPOSITION 1)
    Model of bubble/integrand.hpp:583-1160 (integrand of a bubble, three implementations),
    asymptotic_corrections/correction_functions.hpp:195-305 (the same combination for the tails),
    correlation_functions/four_point/vertex.hpp:464-790, 946-1004, 1077-1100, 1610-1760 and
    correlation_functions/four_point/r_vertex.hpp:520-528, 1536-1596 (which parts of a vertex are
    handed to the bubble and how the usual classes K2, K2', K3 are rebuilt).

    In this build the stored classes of a channel mean: K1 = w - bare vertex, K2 = lambda (Hedin
    vertex minus one), K2' = lambdabar, K3 = multi-boson part.
    Values are elements of any (not necessarily commutative) ring: numbers in the Matsubara
    formalism, 4x4 matrices of Keldysh components in the Keldysh formalism (that the Keldysh
    layout of the code is a matrix product is the subject of Keld_Model).  [V] are the fermionic
    frequencies; the bosonic frequency is fixed.  Interpolation is left out: a class is a function
    of its frequencies.  The spin index is 0, 1 or 2 as in the code (2: sum of the other two). *)
From Coq Require Import ZArith Bool List.
From Verif Require Import Tab_Model.
From Verif Require Keld_Model.
From Coq Require Import Ncring Ncring_tac.
Import ListNotations.

Notation chan := Keld_Model.chan.
Notation Ca := Keld_Model.Ca.
Notation Cp := Keld_Model.Cp.
Notation Ct := Keld_Model.Ct.

Definition chan_eqb (a b : chan) : bool :=
  match a, b with Ca, Ca | Cp, Cp | Ct, Ct => true | _, _ => false end.

Section Sbe.
Context {R : Type} `{Rr : Ring R}.
Context {V : Type}.

(** the classes of one channel and the sum [rest] of the other channels (gammaRb), as found in
    vertices_bubbleintegrand[spin]; [bare] is irred.val *)
Record vx := mkVx {
  bare : Z -> R;
  K1 : Z -> R;
  K2 : Z -> V -> R;
  K2b : Z -> V -> R;
  K3 : Z -> V -> V -> R;
  rest : Z -> V -> V -> R }.

(** ** what the vertex hands to a bubble
    [sbe]: SBE_DECOMPOSITION, [irr]: symmetric_r_irred (vertex without the channel of the bubble),
    [dif]: differentiated *)
(** vertex.hpp:946-967: the identity is added in these cases *)
Definition one_added (sbe dif : bool) (ch : chan) (s : Z) : bool :=
  sbe && ((Z.eqb s 0 && negb (chan_eqb ch Ct)) || (Z.eqb s 1 && negb (chan_eqb ch Ca)) || Z.eqb s 2)
      && negb dif.

(** vertex.hpp:1610-1662, r_vertex.hpp:1551-1560 (MAX_DIAG_CLASS 3) *)
Definition left_same (sbe irr dif : bool) (ch : chan) (s : Z) (X : vx) (u : V) : R :=
  (if sbe then (if irr then 0 else K2b X s u)
   else (if irr then bare X s else bare X s + (K1 X s + K2b X s u)))
  + (if one_added sbe dif ch s then 1 else 0).
(** vertex.hpp:1664-1716, r_vertex.hpp:1562-1571 *)
Definition right_same (sbe irr dif : bool) (ch : chan) (s : Z) (X : vx) (u : V) : R :=
  (if sbe then (if irr then 0 else K2 X s u)
   else (if irr then bare X s else bare X s + (K1 X s + K2 X s u)))
  + (if one_added sbe dif ch s then 1 else 0).
(** vertex.hpp:1718-1737, r_vertex.hpp:1573-1583 *)
Definition left_diff (sbe irr : bool) (s : Z) (X : vx) (v u : V) : R :=
  if irr then rest X s v u
  else (if sbe then K3 X s v u else K2 X s v + K3 X s v u) + rest X s v u.
(** vertex.hpp:1739-1760, r_vertex.hpp:1585-1595 *)
Definition right_diff (sbe irr : bool) (s : Z) (X : vx) (u v' : V) : R :=
  if irr then rest X s u v'
  else (if sbe then K3 X s u v' else K2b X s v' + K3 X s u v') + rest X s u v'.
(** vertex.hpp:981-1004 get_w_r_value_symmetry_expanded_nondiff of the channel of the bubble, for
    symmetric_full and symmetric_r_irred; [N]: vertex_nondifferentiated *)
Definition w_value (irr dif : bool) (s : Z) (X N : vx) : R :=
  if irr then (if dif then 0 else bare X s)
  else if dif then K1 N s + bare N s else K1 X s + bare X s.

(** a vertex argument of the bubble with its compile-time type *)
Record varg := mkArg { vX : vx; vN : vx; vIrr : bool; vDif : bool }.

(** integrand.hpp:495-580: the values loaded for diagrammatic class [k] *)
Definition load_l (sbe : bool) (k : kcl) (ch : chan) (L : varg) (v u : V) (s : Z) : R :=
  match k with
  | k1 | k2b => left_same sbe (vIrr L) (vDif L) ch s (vX L) u
  | k2 | k3 => left_diff sbe (vIrr L) s (vX L) v u
  end.
Definition load_r (sbe : bool) (k : kcl) (ch : chan) (A : varg) (u v' : V) (s : Z) : R :=
  match k with
  | k1 | k2 => right_same sbe (vIrr A) (vDif A) ch s (vX A) u
  | k2b | k3 => right_diff sbe (vIrr A) s (vX A) u v'
  end.
Definition wv (A : varg) (s : Z) : R := w_value (vIrr A) (vDif A) s (vX A) (vN A).

(** ** integrand.hpp:856-990 (scalar, Matsubara) and 1000-1155 (Keldysh matrices)
    [l], [r], [wl], [wr]: loaded values as functions of the spin index, [Pi]: bubble,
    [PL], [PR]: projection_lambda and projection_lambdaBar (one in the Matsubara formalism).
    DEBUG_SYMMETRIES 1: all spin components are computed. *)
Definition paired (ch : chan) (s : Z) : bool :=
  match ch with Ct => Z.eqb s 0 | Ca => Z.eqb s 1 | Cp => false end.
Definition crossed (ch : chan) (s : Z) : bool :=
  match ch with Cp => Z.eqb s 1 | _ => false end.

Definition project (PL PR : R) (k : kcl) (x : R) : R :=
  match k with k2 => x * PR | k2b => PL * x | _ => x end.

Definition sum_internal_sbe (PL PR : R) (k : kcl) (ch : chan) (s : Z)
    (wl l : Z -> R) (Pi : R) (r wr : Z -> R) : R :=
  if paired ch s then
    match k with
    | k1 => wl 2%Z * l 2%Z * Pi * r 2%Z * wr s
          + wl 2%Z * l 2%Z * Pi * r s * wr 2%Z
          + wl 2%Z * l s * Pi * r 2%Z * wr 2%Z
          + wl 2%Z * l s * Pi * r s * wr s
          + wl s * l s * Pi * r 2%Z * wr s
          + wl s * l s * Pi * r s * wr 2%Z
          + wl s * l 2%Z * Pi * r 2%Z * wr 2%Z
          + wl s * l 2%Z * Pi * r s * wr s
    | _ => project PL PR k (l 2%Z * Pi * r s + l s * Pi * r 2%Z)
    end
  else if crossed ch s then
    match k with
    | k1 => wl s * l (1 - s)%Z * Pi * r (1 - s)%Z * wr (1 - s)%Z
    | k2 => project PL PR k (l (1 - s)%Z * Pi * r s)
    | _ => project PL PR k (l s * Pi * r (1 - s)%Z)
    end
  else
    match k with
    | k1 => wl s * l s * Pi * r s * wr s
    | _ => project PL PR k (l s * Pi * r s)
    end.

(** integrand.hpp:955-990, 1160-1215: without SBE decomposition *)
Definition sum_internal_conv (ch : chan) (s : Z) (l : Z -> R) (Pi : R) (r : Z -> R) : R :=
  if paired ch s then l 2%Z * Pi * r s + l s * Pi * r 2%Z
  else if crossed ch s then l s * Pi * r (1 - s)%Z
  else l s * Pi * r s.

(** ** integrand.hpp:583-850, finite-temperature Matsubara: one row, one diagonal and one column
    with an entry per term of the spin sum; integrator.hpp:495-540 multiplies them *)
Definition row_l (sbe : bool) (k : kcl) (ch : chan) (s : Z) (wl l : Z -> R) : list R :=
  if sbe then
    if paired ch s then
      match k with
      | k1 => [wl 2%Z * l s + wl s * l 2%Z; wl 2%Z * l 2%Z + wl s * l s]
      | _ => [l s; l 2%Z]
      end
    else if crossed ch s then
      match k with k1 => [wl s * l (1 - s)%Z] | k2 => [l (1 - s)%Z] | _ => [l s] end
    else match k with k1 => [wl s * l s] | _ => [l s] end
  else if paired ch s then [l s; l 2%Z] else [l s].
Definition col_r (sbe : bool) (k : kcl) (ch : chan) (s : Z) (r wr : Z -> R) : list R :=
  if sbe then
    if paired ch s then
      match k with
      | k1 => [r 2%Z * wr 2%Z + r s * wr s; r s * wr 2%Z + r 2%Z * wr s]
      | _ => [r 2%Z; r s]
      end
    else if crossed ch s then
      match k with k1 => [r (1 - s)%Z * wr (1 - s)%Z] | k2 => [r s] | _ => [r (1 - s)%Z] end
    else match k with k1 => [r s * wr s] | _ => [r s] end
  else if paired ch s then [r 2%Z; r s] else if crossed ch s then [r (1 - s)%Z] else [r s].
(** integrand.hpp:837-850 *)
Definition diag_Pi (ch : chan) (s : Z) (Pi : R) : list R :=
  if paired ch s then [Pi; Pi] else [Pi].
Fixpoint row_diag_col (a p b : list R) : R :=
  match a, p, b with
  | x :: a', y :: p', z :: b' => x * y * z + row_diag_col a' p' b'
  | _, _, _ => 0
  end.
Definition spin_vectorized (sbe : bool) (k : kcl) (ch : chan) (s : Z)
    (wl l : Z -> R) (Pi : R) (r wr : Z -> R) : R :=
  row_diag_col (row_l sbe k ch s wl l) (diag_Pi ch s Pi) (col_r sbe k ch s r wr).

(** ** correction_functions.hpp:195-305 (SBE branch): V is spin [s], Vhat is spin 1-[s] *)
Definition tail_sbe (k : kcl) (ch : chan) (s : Z) (wl l : Z -> R) (Pi : R) (r wr : Z -> R) : R :=
  let K1L := wl s in let K1L_hat := wl (1 - s)%Z in
  let K1R := wr s in let K1R_hat := wr (1 - s)%Z in
  let lV := l s in let lVh := l (1 - s)%Z in
  let rV := r s in let rVh := r (1 - s)%Z in
  if paired ch s then
    match k with
    | k1 => (K1L + K1L_hat) * (lV + lVh) * Pi * (rV + rVh) * K1R
          + (K1L + K1L_hat) * (lV + lVh) * Pi * rV * (K1R + K1R_hat)
          + (K1L + K1L_hat) * lV * Pi * (rV + rVh) * (K1R + K1R_hat)
          + (K1L + K1L_hat) * lV * Pi * rV * K1R
          + K1L * lV * Pi * (rV + rVh) * K1R
          + K1L * lV * Pi * rV * (K1R + K1R_hat)
          + K1L * (lV + lVh) * Pi * (rV + rVh) * (K1R + K1R_hat)
          + K1L * (lV + lVh) * Pi * rV * K1R
    | _ => (lV + lVh) * Pi * rV + lV * Pi * (rV + rVh)
    end
  else if crossed ch s then
    match k with
    | k1 => K1L * lVh * Pi * rVh * K1R_hat
    | k2 => lVh * Pi * rV
    | k2b | k3 => lV * Pi * rVh
    end
  else
    match k with
    | k1 => K1L * lV * Pi * rV * K1R
    | _ => lV * Pi * rV
    end.

(** ** the bubble: integral of the integrand over the internal frequency
    [I]: integral or sum over the internal frequency (with its prefactor), [Pi u]: the bubble *)
Definition bubble_sbe (PL PR : R) (I : (V -> R) -> R) (k : kcl) (ch : chan) (s : Z)
    (L : varg) (Pi : V -> R) (A : varg) (v v' : V) : R :=
  I (fun u => sum_internal_sbe PL PR k ch s (wv L) (load_l true k ch L v u) (Pi u)
                               (load_r true k ch A u v') (wv A)).
Definition bubble_conv (I : (V -> R) -> R) (k : kcl) (ch : chan) (s : Z)
    (L : varg) (Pi : V -> R) (A : varg) (v v' : V) : R :=
  I (fun u => sum_internal_conv ch s (load_l false k ch L v u) (Pi u) (load_r false k ch A u v')).

(** ** rebuilding the usual classes
    r_vertex.hpp:994-1378: combine_SBE_to_K2 (lambda, w) = lambda (K1 + bare),
    combine_SBE_to_K2b (lambdabar, w) = (K1 + bare) lambdabar,
    combine_SBE_to_K3_SBE (K2, lambdabar) = K2 lambdabar *)
Definition cK2 (lam : V -> R) (w : R) : V -> R := fun v => lam v * w.
Definition cK2b (lamb : V -> R) (w : R) : V -> R := fun v => w * lamb v.
Definition cK3 (k2 lamb : V -> R) : V -> V -> R := fun v v' => k2 v * lamb v'.

(** spin combinations, vertex.hpp:470-612 *)
Definition build_K2 (ch : chan) (lam : Z -> V -> R) (w : Z -> R) (s : Z) (v : V) : R :=
  let s0 := match ch with
            | Ct => cK2 (lam 0%Z) (w 2%Z) v + cK2 (lam 2%Z) (w 0%Z) v
            | _ => cK2 (lam 0%Z) (w 0%Z) v end in
  let s1 := match ch with
            | Ca => cK2 (lam 1%Z) (w 2%Z) v + cK2 (lam 2%Z) (w 1%Z) v
            | Cp => cK2 (lam 0%Z) (w 1%Z) v
            | Ct => cK2 (lam 1%Z) (w 1%Z) v end in
  if Z.eqb s 0 then s0 else if Z.eqb s 1 then s1 else s0 + s1.
Definition build_K2b (ch : chan) (lamb : Z -> V -> R) (w : Z -> R) (s : Z) (v : V) : R :=
  let s0 := match ch with
            | Ct => cK2b (lamb 0%Z) (w 2%Z) v + cK2b (lamb 2%Z) (w 0%Z) v
            | _ => cK2b (lamb 0%Z) (w 0%Z) v end in
  let s1 := match ch with
            | Ca => cK2b (lamb 1%Z) (w 2%Z) v + cK2b (lamb 2%Z) (w 1%Z) v
            | Cp => cK2b (lamb 0%Z) (w 1%Z) v
            | Ct => cK2b (lamb 1%Z) (w 1%Z) v end in
  if Z.eqb s 0 then s0 else if Z.eqb s 1 then s1 else s0 + s1.
Definition build_K3 (ch : chan) (k2 lamb : Z -> V -> R) (s : Z) (v v' : V) : R :=
  let s0 := match ch with
            | Ct => cK3 (k2 0%Z) (lamb 2%Z) v v' + cK3 (k2 2%Z) (lamb 0%Z) v v'
            | _ => cK3 (k2 0%Z) (lamb 0%Z) v v' end in
  let s1 := match ch with
            | Ca => cK3 (k2 1%Z) (lamb 2%Z) v v' + cK3 (k2 2%Z) (lamb 1%Z) v v'
            | Cp => cK3 (k2 1%Z) (lamb 0%Z) v v'
            | Ct => cK3 (k2 1%Z) (lamb 1%Z) v v' end in
  if Z.eqb s 0 then s0 else if Z.eqb s 1 then s1 else s0 + s1.

(** vertex.hpp:617-790: the same with one of the factors taken from the differentiated vertex
    ([d…]) and the other from the nondifferentiated one *)
Definition build_dK2 (ch : chan) (dlam : Z -> V -> R) (dw : Z -> R) (lam : Z -> V -> R) (w : Z -> R)
    (s : Z) (v : V) : R :=
  let s0 := match ch with
            | Ct => cK2 (dlam 0%Z) (w 2%Z) v + cK2 (dlam 2%Z) (w 0%Z) v
                    + cK2 (lam 0%Z) (dw 2%Z) v + cK2 (lam 2%Z) (dw 0%Z) v
            | _ => cK2 (dlam 0%Z) (w 0%Z) v + cK2 (lam 0%Z) (dw 0%Z) v end in
  let s1 := match ch with
            | Ca => cK2 (dlam 1%Z) (w 2%Z) v + cK2 (dlam 2%Z) (w 1%Z) v
                    + cK2 (lam 1%Z) (dw 2%Z) v + cK2 (lam 2%Z) (dw 1%Z) v
            | Cp => cK2 (dlam 0%Z) (w 1%Z) v + cK2 (lam 0%Z) (dw 1%Z) v
            | Ct => cK2 (dlam 1%Z) (w 1%Z) v + cK2 (lam 1%Z) (dw 1%Z) v end in
  if Z.eqb s 0 then s0 else if Z.eqb s 1 then s1 else s0 + s1.
Definition build_dK2b (ch : chan) (dlamb : Z -> V -> R) (dw : Z -> R) (lamb : Z -> V -> R) (w : Z -> R)
    (s : Z) (v : V) : R :=
  let s0 := match ch with
            | Ct => cK2b (dlamb 0%Z) (w 2%Z) v + cK2b (dlamb 2%Z) (w 0%Z) v
                    + cK2b (lamb 0%Z) (dw 2%Z) v + cK2b (lamb 2%Z) (dw 0%Z) v
            | _ => cK2b (dlamb 0%Z) (w 0%Z) v + cK2b (lamb 0%Z) (dw 0%Z) v end in
  let s1 := match ch with
            | Ca => cK2b (dlamb 1%Z) (w 2%Z) v + cK2b (dlamb 2%Z) (w 1%Z) v
                    + cK2b (lamb 1%Z) (dw 2%Z) v + cK2b (lamb 2%Z) (dw 1%Z) v
            | Cp => cK2b (dlamb 0%Z) (w 1%Z) v + cK2b (lamb 0%Z) (dw 1%Z) v
            | Ct => cK2b (dlamb 1%Z) (w 1%Z) v + cK2b (lamb 1%Z) (dw 1%Z) v end in
  if Z.eqb s 0 then s0 else if Z.eqb s 1 then s1 else s0 + s1.
Definition build_dK3 (ch : chan) (dk2 dlamb k2 lamb : Z -> V -> R) (s : Z) (v v' : V) : R :=
  let s0 := match ch with
            | Ct => cK3 (dk2 0%Z) (lamb 2%Z) v v' + cK3 (dk2 2%Z) (lamb 0%Z) v v'
                    + cK3 (k2 0%Z) (dlamb 2%Z) v v' + cK3 (k2 2%Z) (dlamb 0%Z) v v'
            | _ => cK3 (dk2 0%Z) (lamb 0%Z) v v' + cK3 (k2 0%Z) (dlamb 0%Z) v v' end in
  let s1 := match ch with
            | Ca => cK3 (dk2 1%Z) (lamb 2%Z) v v' + cK3 (dk2 2%Z) (lamb 1%Z) v v'
                    + cK3 (k2 1%Z) (dlamb 2%Z) v v' + cK3 (k2 2%Z) (dlamb 1%Z) v v'
            | Cp => cK3 (dk2 1%Z) (lamb 0%Z) v v' + cK3 (k2 1%Z) (dlamb 0%Z) v v'
            | Ct => cK3 (dk2 1%Z) (lamb 1%Z) v v' + cK3 (k2 1%Z) (dlamb 1%Z) v v' end in
  if Z.eqb s 0 then s0 else if Z.eqb s 1 then s1 else s0 + s1.

(** ** the expanded buffers of all channels and the steps of symmetry_expand *)
Record bufs := mkB {
  bbare : Z -> R;
  bK1 : chan -> Z -> R;
  bK2 : chan -> Z -> V -> R;
  bK2b : chan -> Z -> V -> R;
  bK3 : chan -> Z -> V -> V -> R;
  bK3S : chan -> Z -> V -> V -> R }.

Definition bw (B : bufs) (ch : chan) (s : Z) : R := bK1 B ch s + bbare B s.
(** vertex.hpp:2157-2163 (bare vertex changes its sign for spin 1) and 793-824
    (symmetry_expand_impl): the entry with index 2 is the sum of the other two, its bare part is
    set to zero.  [b]: stored bare vertex, the other arguments: the symmetry-expanded classes for
    spin 0 and 1 *)
Definition expand_impl (b : R) (f1 : chan -> Z -> R) (f2 f2b : chan -> Z -> V -> R)
    (f3 : chan -> Z -> V -> V -> R) : bufs :=
  mkB (fun s => if Z.eqb s 0 then b else if Z.eqb s 1 then - b else 0)
      (fun ch s => if Z.eqb s 2 then f1 ch 0%Z + f1 ch 1%Z else f1 ch s)
      (fun ch s v => if Z.eqb s 2 then f2 ch 0%Z v + f2 ch 1%Z v else f2 ch s v)
      (fun ch s v => if Z.eqb s 2 then f2b ch 0%Z v + f2b ch 1%Z v else f2b ch s v)
      (fun ch s v v' => if Z.eqb s 2 then f3 ch 0%Z v v' + f3 ch 1%Z v v' else f3 ch s v v')
      (fun _ _ _ _ => 0).
(** "channel_bubble != r or need_full_vertex" *)
Definition rebuilt (chb : chan) (full : bool) (ch : chan) : bool := negb (chan_eqb chb ch) || full.
(** last loop of every construct function: spin 2 := spin 0 + spin 1 for all channels *)
Definition spin2 {X : Type} (f : Z -> X -> R) (s : Z) (x : X) : R :=
  if Z.eqb s 2 then f 0%Z x + f 1%Z x else f s x.

Definition construct_K2 (chb : chan) (full : bool) (B : bufs) : bufs :=
  mkB (bbare B) (bK1 B)
      (fun ch => spin2 (fun s v => if rebuilt chb full ch
                                   then build_K2 ch (bK2 B ch) (bw B ch) s v else bK2 B ch s v))
      (bK2b B) (bK3 B) (bK3S B).
Definition construct_K3S (chb : chan) (full : bool) (B : bufs) : bufs :=
  mkB (bbare B) (bK1 B) (bK2 B) (bK2b B) (bK3 B)
      (fun ch s v v' => spin2 (fun s vv => if rebuilt chb full ch
                                   then build_K3 ch (bK2 B ch) (bK2b B ch) s (fst vv) (snd vv)
                                   else bK3S B ch s (fst vv) (snd vv)) s (v, v')).
Definition construct_K2b (chb : chan) (full : bool) (B : bufs) : bufs :=
  mkB (bbare B) (bK1 B) (bK2 B)
      (fun ch => spin2 (fun s v => if rebuilt chb full ch
                                   then build_K2b ch (bK2b B ch) (bw B ch) s v else bK2b B ch s v))
      (bK3 B) (bK3S B).
Definition construct_dK2 (chb : chan) (full : bool) (D B : bufs) : bufs :=
  mkB (bbare D) (bK1 D)
      (fun ch => spin2 (fun s v => if rebuilt chb full ch
                                   then build_dK2 ch (bK2 D ch) (bw D ch) (bK2 B ch) (bw B ch) s v
                                   else bK2 D ch s v))
      (bK2b D) (bK3 D) (bK3S D).
Definition construct_dK3S (chb : chan) (full : bool) (D B : bufs) : bufs :=
  mkB (bbare D) (bK1 D) (bK2 D) (bK2b D) (bK3 D)
      (fun ch s v v' => spin2 (fun s vv => if rebuilt chb full ch
                                   then build_dK3 ch (bK2 D ch) (bK2b D ch) (bK2 B ch) (bK2b B ch)
                                                  s (fst vv) (snd vv)
                                   else bK3S D ch s (fst vv) (snd vv)) s (v, v')).
Definition construct_dK2b (chb : chan) (full : bool) (D B : bufs) : bufs :=
  mkB (bbare D) (bK1 D) (bK2 D)
      (fun ch => spin2 (fun s v => if rebuilt chb full ch
                                   then build_dK2b ch (bK2b D ch) (bw D ch) (bK2b B ch) (bw B ch) s v
                                   else bK2b D ch s v))
      (bK3 D) (bK3S D).

(** vertex.hpp:1077-1096, the order of the steps *)
Definition expand_nondiff (chb : chan) (full : bool) (B : bufs) : bufs :=
  construct_K2b chb full (construct_K3S chb full (construct_K2 chb full B)).
(** result: buffers of the differentiated vertex and of its nondifferentiated companion *)
Definition expand_diff (chb : chan) (full : bool) (D B : bufs) : bufs * bufs :=
  let D1 := construct_dK2 chb full D B in
  let B1 := construct_K2 chb full B in
  let D2 := construct_dK3S chb full D1 B1 in
  let B2 := construct_K3S chb full B1 in
  let D3 := construct_dK2b chb full D2 B2 in
  (D3, B2).

(** what a bubble in channel [ch] sees of the buffers (the other channels, [rest], have other
    frequency arguments and are left open) *)
Definition vx_of (B : bufs) (ch : chan) (rst : Z -> V -> V -> R) : vx :=
  mkVx (bbare B) (bK1 B ch) (bK2 B ch) (bK2b B ch) (bK3 B ch) rst.

(** r_vertex.hpp:1536-1549 value_symmetry_expanded of one channel at frequencies (v,v') of that
    channel; 520-528: valsmooth_symmetry_expanded<k3_sbe> returns zero *)
Definition valsmooth_k3_sbe (B : bufs) (ch : chan) (s : Z) (v v' : V) : R := 0.
Definition channel_value (B : bufs) (ch : chan) (s : Z) (v v' : V) : R :=
  bK1 B ch s + bK2 B ch s v + bK2b B ch s v' + valsmooth_k3_sbe B ch s v v' + bK3 B ch s v v'.

End Sbe.

Arguments vx R V : clear implicits.
Arguments varg R V : clear implicits.
Arguments bufs R V : clear implicits.
