(** Model of the self-check of a vertex with all symmetries switched off,
    rvert::check_symmetries (correlation_functions/four_point/r_vertex.hpp:569-825) as called by
    fullvert::check_symmetries (vertex.hpp:2150-2155: [rvert_this] is the vertex itself), DEBUG_SYMMETRIES 1,
    MAX_DIAG_CLASS 3. Buffers are functions as in [Rd_Model]; the loops run over a list of entries
    (spin, Keldysh index, frequencies of the grid point). *)
From Coq Require Import QArith.
From Verif Require Import Prelude Cplx Keld_Model Util_Model Sym_Model Tab_Model Rd_Model.
Open Scope Z_scope.

(** 618-621; 683-688; 770-784: number of the frequency transformation; no correction of v + v' *)
Definition check_index (c : cfg) (ch : chan) (k : kcl) (x : vinput) : option Z :=
  let t := freq_transformations c ch k in
  match k with
  | k1 => nth_error t (Z.to_nat (sign_index (in_w x)))
  | k2 => nth_error t (Z.to_nat (sign_index (in_w x) * 2 + sign_index (in_v1 x)))
  | k3 => nth_error t (Z.to_nat (sign_index (in_w x) * 4 + sign_index (in_v1 x + in_v2 x)%Q * 2
                                 + sign_index (in_v1 x - in_v2 x)%Q))
  | k2b => None
  end.
(** one entry: 582-634 (K1), 651-702 (K2), 708-733 (K2'), 745-794 (K3). The value read directly is compared with the
    value read through the transformation to spin 0 (K2' is read from K2); where that transformation is the identity the
    stored deviation is overwritten by the one of the frequency transformation (for K1 only if that is not the
    identity). *)
Definition check_entry (c : cfg) (sbe : bool) (k : kcl) (this crossing : rv) (s iK : Z) (f : Q * Q * Q) : option cplx :=
  let x := expand_input k iK s f in
  value_direct <- read_symmetryreduced c true k (indices_of x (channel this)) this ;;
  yr <- symmetry_reduce c sbe k this crossing this crossing x ;;
  value_symmet <- read_symmetryreduced c true (match k with k2b => k2 | _ => k end) (fst yr) (snd yr) ;;
  t <- transformations (keldysh c) (channel this) k s ;;
  let deviation := (value_direct - value_symmet)%C in
  if (t =? 0) && match k with k2b => false | _ => true end then
    i <- check_index c (channel this) k x ;;
    if (i =? 0) && match k with k1 => true | _ => false end then Some deviation
    else
      y <- Ti c (match k with k2 => sbe | _ => false end) (indices_of x (channel this)) i ;;
      result_freqsymm <- read_symmetryreduced c true k y this ;;
      Some (value_direct - result_freqsymm)%C
  else Some deviation.

Definition entry := (Z * Z * (Q * Q * Q))%type.
Definition check_class (c : cfg) (sbe : bool) (k : kcl) (this crossing : rv) (es : list entry) : option (list cplx) :=
  osequence (map (fun e => let '(s, iK, f) := e in check_entry c sbe k this crossing s iK f) es).
(** max_norm, squared *)
Definition max2 (l : list cplx) : Q :=
  fold_left (fun m z => if Qle_bool (Cnorm2 z) m then m else Cnorm2 z) l 0%Q.
(** 636, 704, 735, 796: the number that is printed (squared), if the norm of the class exceeds 1e-30 *)
Definition printed2 (devs vals : list cplx) : option Q :=
  if Qle_bool (max2 vals) (1 # (10 ^ 60)) then None else Some (max2 devs / max2 vals)%Q.
(** 801-821: the factor (squared) of the deviations in the file, None: 1/0, the data in the file are not finite *)
Definition file_factor2 (k : kcl) (vals : list cplx) : option Q :=
  match k with
  | k1 => Some 1%Q
  | _ => if Qeq_bool (max2 vals) 0 then None else Some (1 / max2 vals)%Q
  end.
