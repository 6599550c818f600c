(** Decomposition of a vertex into parts that do or do not depend on the frequency of the adjacent bubble.
    Model of correlation_functions/four_point/r_vertex.hpp:1390-1595 and four_point/vertex.hpp:1264-1565,
    890-980. [m] is "finite-temperature Matsubara", [n] is MAX_DIAG_CLASS. [None]: assert(false), a missing
    return statement or the return of an uninitialised variable. STATIC_FEEDBACK is not defined. *)
From Coq Require Import QArith.
From Verif Require Import Prelude Cplx Keld_Model Util_Spec Sym_Model Tab_Model.
Open Scope Z_scope.

(** valsmooth<k> of one reducible vertex, as a function of its own frequencies; Keldysh, spin and internal
    indices are fixed. The version with two halves and the symmetry-expanded version differ only in
    valsmooth. *)
Definition rvertex := kcl -> Q * Q * Q -> cplx.

(** r_vertex.hpp:1390-1427; for SBE_DECOMPOSITION both versions assert(false) from class 2 on *)
Definition r_value (m sbe : bool) (n : Z) (ch : chan) (b : bub) (r : rvertex) (f : Q * Q * Q) : option cplx :=
  g <- transfToR m ch b f ;;
  let val := r k1 g in
  if 2 <=? n then
    if sbe then None else
    let val := (val + r k2 g)%C in
    let val := (val + r k2b g)%C in
    Some (if 3 <=? n then (val + r k3 g)%C else val)
  else Some val.
(** 1429-1452; the SBE branches assert(false) *)
Definition r_left_same (sbe : bool) (n : Z) (r : rvertex) (f : Q * Q * Q) : option cplx :=
  if sbe then None else if n =? 1 then Some (r k1 f) else if 1 <? n then Some (r k1 f + r k2b f)%C else None.
(** 1454-1477 *)
Definition r_right_same (sbe : bool) (n : Z) (r : rvertex) (f : Q * Q * Q) : option cplx :=
  if sbe then None else if n =? 1 then Some (r k1 f) else if 1 <? n then Some (r k1 f + r k2 f)%C else None.
(** 1479-1503 *)
Definition r_left_diff (sbe : bool) (n : Z) (r : rvertex) (f : Q * Q * Q) : option cplx :=
  if sbe then None else if n =? 1 then Some C0 else if n =? 2 then Some (r k2 f)
  else if n =? 3 then Some (r k2 f + r k3 f)%C else None.
(** 1505-1529 *)
Definition r_right_diff (sbe : bool) (n : Z) (r : rvertex) (f : Q * Q * Q) : option cplx :=
  if sbe then None else if n =? 1 then Some C0 else if n =? 2 then Some (r k2b f)
  else if n =? 3 then Some (r k2b f + r k3 f)%C else None.

(** symmetry-expanded versions, r_vertex.hpp:1531-1595; [k3_sbe] is the additional class of the
    single-boson-exchange decomposition *)
Definition x_value (m sbe : bool) (n : Z) (ch : chan) (b : bub) (r : rvertex) (k3_sbe : Q * Q * Q -> cplx)
  (f : Q * Q * Q) : option cplx :=
  g <- transfToR m ch b f ;;
  let val := r k1 g in
  if 2 <=? n then
    let val := (val + r k2 g)%C in
    let val := (val + r k2b g)%C in
    let val := if sbe then (val + k3_sbe g)%C else val in
    Some (if 3 <=? n then (val + r k3 g)%C else val)
  else Some val.
Definition x_left_same (sbe : bool) (n : Z) (r : rvertex) (f : Q * Q * Q) : option cplx :=
  if n =? 1 then Some (if sbe then C0 else r k1 f)
  else if 1 <? n then Some (if sbe then r k2b f else r k1 f + r k2b f)%C else None.
Definition x_right_same (sbe : bool) (n : Z) (r : rvertex) (f : Q * Q * Q) : option cplx :=
  if n =? 1 then Some (if sbe then C0 else r k1 f)
  else if 1 <? n then Some (if sbe then r k2 f else r k1 f + r k2 f)%C else None.
Definition x_left_diff (sbe : bool) (n : Z) (r : rvertex) (f : Q * Q * Q) : option cplx :=
  if sbe then (if n <=? 2 then Some C0 else if n =? 3 then Some (r k3 f) else None)
  else if n =? 1 then Some C0 else if n =? 2 then Some (r k2 f)
  else if n =? 3 then Some (r k2 f + r k3 f)%C else None.
Definition x_right_diff (sbe : bool) (n : Z) (r : rvertex) (f : Q * Q * Q) : option cplx :=
  if sbe then (if n <=? 2 then Some C0 else if n =? 3 then Some (r k3 f) else None)
  else if n =? 1 then Some C0 else if n =? 2 then Some (r k2b f)
  else if n =? 3 then Some (r k2b f + r k3 f)%C else None.

(** ** full vertex, vertex.hpp *)
Record fvert := mkF { irred : cplx; av : rvertex; pv : rvertex; tv : rvertex }.
Definition get_r (v : fvert) (ch : chan) : rvertex := match ch with Ca => av v | Cp => pv v | Ct => tv v end.
Definition oadd (a b : option cplx) : option cplx := x <- a ;; y <- b ;; Some (x + y)%C.

(** 1289-1323: the reducible parts of the two other channels, read at frequencies of channel [b] *)
Definition gammaRb (m sbe : bool) (n : Z) (b : chan) (v : fvert) (f : Q * Q * Q) : option cplx :=
  let val ch := r_value m sbe n ch (Bch b) (get_r v ch) f in
  match b with
  | Ca => oadd (val Cp) (val Ct)
  | Cp => oadd (val Ca) (val Ct)
  | Ct => oadd (val Ca) (val Cp)
  end.
(** 1264-1287 *)
Definition f_value (m sbe : bool) (n : Z) (r_irred : bool) (b : chan) (v : fvert) (f : Q * Q * Q) : option cplx :=
  if r_irred then oadd (Some (irred v)) (gammaRb m sbe n b v f)
  else oadd (oadd (oadd (Some (irred v)) (r_value m sbe n Ca (Bch b) (av v) f))
                  (r_value m sbe n Cp (Bch b) (pv v) f))
            (r_value m sbe n Ct (Bch b) (tv v) f).
(** 1325-1477 *)
Definition f_left_same (sbe : bool) (n : Z) (r_irred : bool) (b : chan) (v : fvert) (f : Q * Q * Q) : option cplx :=
  if r_irred then Some (irred v) else oadd (Some (irred v)) (r_left_same sbe n (get_r v b) f).
Definition f_right_same (sbe : bool) (n : Z) (r_irred : bool) (b : chan) (v : fvert) (f : Q * Q * Q) : option cplx :=
  if r_irred then Some (irred v) else oadd (Some (irred v)) (r_right_same sbe n (get_r v b) f).
(** 1479-1565: for r-irreducible vertices [gamma_Rb] stays uninitialised unless MAX_DIAG_CLASS >= 2 *)
Definition f_left_diff (m sbe : bool) (n : Z) (r_irred only_channel_r : bool) (b : chan) (v : fvert)
  (f : Q * Q * Q) : option cplx :=
  if r_irred then (if 2 <=? n then gammaRb m sbe n b v f else None)
  else if only_channel_r then r_left_diff sbe n (get_r v b) f
  else oadd (r_left_diff sbe n (get_r v b) f) (gammaRb m sbe n b v f).
Definition f_right_diff (m sbe : bool) (n : Z) (r_irred only_channel_r : bool) (b : chan) (v : fvert)
  (f : Q * Q * Q) : option cplx :=
  if r_irred then (if 2 <=? n then gammaRb m sbe n b v f else None)
  else if only_channel_r then r_right_diff sbe n (get_r v b) f
  else oadd (r_right_diff sbe n (get_r v b) f) (gammaRb m sbe n b v f).

(** GeneralVertex, vertex.hpp:906-980: the symmetry type selects the template arguments *)
Inductive symmtype := symmetric_full | symmetric_r_irred | non_symmetric_diffleft | non_symmetric_diffright.
Definition is_r_irred (s : symmtype) : bool := match s with symmetric_r_irred => true | _ => false end.
Definition is_diff (s : symmtype) : bool :=
  match s with non_symmetric_diffleft | non_symmetric_diffright => true | _ => false end.
Definition is_full (s : symmtype) : bool := match s with symmetric_full => true | _ => false end.
Definition g_value m sbe n s := f_value m sbe n (is_r_irred s).
Definition g_left_same sbe n s := f_left_same sbe n (is_r_irred s).
Definition g_right_same sbe n s := f_right_same sbe n (is_r_irred s).
Definition g_left_diff m sbe n s := f_left_diff m sbe n (is_r_irred s) (is_diff s).
Definition g_right_diff m sbe n s := f_right_diff m sbe n (is_r_irred s) (is_diff s).
(** value_symmetry_expanded (935-940) passes [symmtype != symmetric_full] instead *)
Definition g_value_expanded m sbe n s := f_value m sbe n (negb (is_full s)).
