(** Specification for the symmetry tables: pairs of legs on the two sides of a channel, causality,
    orbits of components. *)
From Coq Require Import QArith.
From Verif Require Import Prelude Keld_Model Util_Spec Sym_Model Sym_Spec Tab_Model.
Open Scope Z_scope.

(** the pair of legs on the side of v and on the side of v' (compare [legs_of]) *)
Definition left_pair (ch : chan) (k : klegs) : Z * Z :=
  match ch with Ca => (a1' k, a2 k) | Cp => (a1' k, a2' k) | Ct => (a2' k, a2 k) end.
Definition right_pair (ch : chan) (k : klegs) : Z * Z :=
  match ch with Ca => (a2' k, a1 k) | Cp => (a1 k, a2 k) | Ct => (a1' k, a1 k) end.
Definition build (ch : chan) (l r : Z * Z) : klegs :=
  match ch with
  | Ca => mkK (fst l) (fst r) (snd r) (snd l)
  | Cp => mkK (fst l) (snd l) (fst r) (snd r)
  | Ct => mkK (fst r) (fst l) (snd r) (snd l)
  end.
Definition even_pair (p : Z * Z) : bool := fst p =? snd p.
Definition both2 (p : Z * Z) : bool := (fst p =? 2) && (snd p =? 2).
(** causality: K1 has a bare vertex on both sides, K2 on the right, K2b on the left, K3 on none *)
Definition vanishes (sbe : bool) (ch : chan) (c : kcl) (k : klegs) : bool :=
  let l := left_pair ch k in let r := right_pair ch k in
  match c with
  | k1 => even_pair l && even_pair r
  | k2 => both2 l && xorb sbe (even_pair r)
  | k2b => xorb sbe (even_pair l) && both2 r
  | k3 => both2 l && both2 r
  end.
(** symmetries within one class and channel: reversing both pairs; exchanging the sides (with or without
    reversal, K1 and K3 only); replacing both indices of a bare pair by the other value *)
Definition rev (p : Z * Z) : Z * Z := (snd p, fst p).
Definition flip (p : Z * Z) : Z * Z := (3 - fst p, 3 - snd p).
Definition orbit (ch : chan) (c : kcl) (k : klegs) : list klegs :=
  let l := left_pair ch k in let r := right_pair ch k in
  let base := [(l, r); (rev l, rev r)] in
  let exch := map (fun q => (snd q, fst q)) in
  let flipl := map (fun q : (Z * Z) * (Z * Z) => (flip (fst q), snd q)) in
  let flipr := map (fun q : (Z * Z) * (Z * Z) => (fst q, flip (snd q))) in
  map (fun q => build ch (fst q) (snd q))
    match c with
    | k1 => let a := base ++ exch base in let b := a ++ flipl a in b ++ flipr b
    | k2 => base ++ flipr base
    | k2b => base ++ flipl base
    | k3 => base ++ exch base
    end.
(** K2b is read from K2 *)
Definition stored_class (k : kcl) : kcl := match k with k2b => k2 | _ => k end.
(** a point of the frequency grid *)
Definition valid_key (c : cfg) (p : key) : Prop :=
  (if keldysh c then 0 <= kK p < 16 else kK p = 0) /\ 0 <= ks p < 2 /\ (mf c = true -> bosonic (kw p)).
