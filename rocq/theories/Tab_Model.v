(** Model of symmetries/symmetry_table.hpp and of rvert::enforce_freqsymmetriesK1/K2/K3
    (correlation_functions/four_point/r_vertex.hpp:1781-1908).
    Only CONTOUR_BASIS != 1 (with CONTOUR_BASIS == 1 the tables are defined twice). *)
From Coq Require Import QArith.
From Verif Require Import Prelude Cplx Keld_Model Util_Model Sym_Model.
Open Scope Z_scope.

(** parameters/master_parameters.hpp K_class; the order k1, k2, k2b, k3 is the first table index *)
Inductive kcl := k1 | k2 | k2b | k3.

(** symmetry_table.hpp:15-205, one list of 16 entries per class and spin; [sbe] is SBE_DECOMPOSITION *)
Definition comp_K1 (ch : chan) : list Z :=
  match ch with
  | Ca => [-1; 0; 0; 1;  0; 1; -1; 0;  0; -1; 1; 0;  1; 0; 0; -1]
  | Cp => [-1; 0; 0; -1;  0; 1; 1; 0;  0; 1; 1; 0;  -1; 0; 0; -1]
  | Ct => [-1; 0; 0; 1;  0; -1; 1; 0;  0; 1; -1; 0;  1; 0; 0; -1]
  end.
Definition comp_K2 (sbe : bool) (ch : chan) : list Z :=
  match ch, sbe with
  | Ca, false => [0; 1; 2; 3;  2; 3; 0; 1;  1; -1; 3; 4;  3; 4; 1; -1]
  | Ca, true => [0; 1; 2; 3;  2; 3; 0; 1;  1; 4; 3; -1;  3; -1; 1; 4]
  | Cp, false => [0; 1; 1; 0;  2; 3; 3; 2;  2; 3; 3; 2;  -1; 4; 4; -1]
  | Cp, true => [0; 1; 1; 0;  2; 3; 3; 2;  2; 3; 3; 2;  4; -1; -1; 4]
  | Ct, false => [0; 1; 2; 3;  1; -1; 3; 4;  2; 3; 0; 1;  3; 4; 1; -1]
  | Ct, true => [0; 1; 2; 3;  1; 4; 3; -1;  2; 3; 0; 1;  3; -1; 1; 4]
  end.
Definition comp_K2b (sbe : bool) (ch : chan) : list Z :=
  match ch, sbe with
  | Ca, false => [0; 2; 1; 3;  1; 3; -1; 4;  2; 0; 3; 1;  3; 1; 4; -1]
  | Ca, true => [0; 2; 1; 3;  1; 3; 4; -1;  2; 0; 3; 1;  3; 1; -1; 4]
  | Cp, false => [0; 2; 2; -1;  1; 3; 3; 4;  1; 3; 3; 4;  0; 2; 2; -1]
  | Cp, true => [0; 2; 2; 4;  1; 3; 3; -1;  1; 3; 3; -1;  0; 2; 2; 4]
  | Ct, false => [0; 2; 1; 3;  2; 0; 3; 1;  1; 3; -1; 4;  3; 1; 4; -1]
  | Ct, true => [0; 2; 1; 3;  2; 0; 3; 1;  1; 3; 4; -1;  3; 1; -1; 4]
  end.
Definition comp_K3 (s : Z) : list Z :=
  if s =? 0 then [0; 1; 1; 2;  1; 3; 4; 5;  1; 4; 3; 5;  2; 5; 5; -1]
  else [0; 1; 1; 2;  1; 4; 3; 5;  1; 3; 4; 5;  2; 5; 5; -1].
(** [components.K(k, spin, iK)]; Components_Matsubara (460) has one entry per class and spin, all 0 *)
Definition components (keldysh sbe : bool) (ch : chan) (k : kcl) (s i : Z) : option Z :=
  if (0 <=? s) && (s <? 2) && (0 <=? i) then
    if keldysh then
      nth_error match k with
                | k1 => comp_K1 ch | k2 => comp_K2 sbe ch | k2b => comp_K2b sbe ch | k3 => comp_K3 s
                end (Z.to_nat i)
    else if i =? 0 then Some 0 else None
  else None.

(** symmetry_table.hpp:495-509, 735-737; [transformations.K(k, spin)] *)
Definition transformations (keldysh : bool) (ch : chan) (k : kcl) (s : Z) : option Z :=
  let pick (a b : Z) := if s =? 0 then Some a else if s =? 1 then Some b else None in
  match ch, k with
  | Cp, k1 => pick 0 1 | Cp, k2 => pick 0 1 | Cp, k2b => pick 4 41 | Cp, k3 => pick 0 1
  | _, k1 => pick 0 (if keldysh then 2 else 1)
  | _, k2 => pick 0 2 | _, k2b => pick 3 1 | _, k3 => pick 0 2
  end.

(** symmetry_table.hpp:809-817, 834-848, 892-900: FrequencyTransformations *)
Definition freq_transformations (c : cfg) (ch : chan) (k : kcl) : list Z :=
  if keldysh c then
    if phs c then
      match k, ch with
      | k1, Ca => [0; 3] | k1, Cp => [0; 6] | k1, Ct => [0; 3]
      | k2, Ca => [0; 346; 34; 6] | k2, Cp => [0; 3; 36; 6] | k2, Ct => [0; 46; 4; 6]
      | k3, Ca => [0; 4; 36; 346; 34; 3; 46; 6]
      | k3, Cp => [0; 4; 34; 3; 36; 346; 46; 6]
      | k3, Ct => [0; 34; 36; 46; 4; 3; 346; 6]
      | k2b, _ => []
      end
    else
      match k, ch with
      | k1, Ca => [0; 3] | k1, Cp => [0; 0] | k1, Ct => [0; 3]
      | k2, Ca => [0; 0; 34; 34] | k2, Cp => [0; 3; 0; 3] | k2, Ct => [0; 0; 4; 4]
      | k3, Ca => [0; 4; 0; 4; 34; 3; 34; 3]
      | k3, Cp => [0; 4; 34; 3; 0; 4; 34; 3]
      | k3, Ct => [0; 34; 0; 34; 4; 3; 4; 3]
      | k2b, _ => []
      end
  else
    match k, ch with
    | k1, Ca => [0; 3] | k1, Cp => [0; 4] | k1, Ct => [0; 3]
    | k2, Ca => [0; 34; 347; 7] | k2, Cp => [0; 3; 37; 7] | k2, Ct => [0; 4; 47; 7]
    | k3, Ca => [0; 47; 37; 34; 347; 3; 4; 7]
    | k3, Cp => [0; 47; 347; 3; 37; 34; 4; 7]
    | k3, Ct => [0; 347; 37; 4; 47; 3; 34; 7]
    | k2b, _ => []
    end.

(** ** r_vertex.hpp:1781-1908 *)
(** index of a vertex entry: Keldysh index, spin, frequencies (v1 = v2 = 0 for K1, v2 = 0 for K2);
    the internal index is carried along unchanged *)
Record key := mkKey { kK : Z; ks : Z; kw : Q; kv1 : Q; kv2 : Q }.
Definition key_eqb (a b : key) : bool :=
  (kK a =? kK b) && (ks a =? ks b) && Qeq_bool (kw a) (kw b) && Qeq_bool (kv1 a) (kv1 b) && Qeq_bool (kv2 a) (kv2 b).
(** a vertex buffer read at grid points (the interpolation returns the stored value there, C43-C45) *)
Definition buffer := key -> cplx.
Definition upd (d : buffer) (p : key) (x : cplx) : buffer := fun q => if key_eqb q p then x else d q.

(** the frequencies an interpolation in class k uses *)
Definition key_of (k : kcl) (y : indices) : key :=
  mkKey (iK y) (spin y) (w y)
    match k with k1 => 0%Q | _ => v1 y end
    match k with k3 => v2 y | _ => 0%Q end.
Definition start (ch : chan) (p : key) : indices :=
  mkI (kK p) (ks p) (kw p) (kv1 p) (kv2 p) 0 1%Q false false ch.

(** 1797-1798; 1830-1832; 1873-1880 *)
Definition trafo_index (c : cfg) (ch : chan) (k : kcl) (p : key) : option Z :=
  let t := freq_transformations c ch k in
  match k with
  | k1 => nth_error t (Z.to_nat (sign_index (kw p)))
  | k2 => nth_error t (Z.to_nat (sign_index (kw p) * 2 + sign_index (kv1 p)))
  | k3 =>
      r <- corr c (kw p) ;;
      let sf := sign_index (if mf c then (kv1 p + kv2 p - r * (1 # 2))%Q else (kv1 p + kv2 p)%Q) in
      nth_error t (Z.to_nat (sign_index (kw p) * 4 + sf * 2 + sign_index (kv1 p - kv2 p)%Q))
  | k2b => None
  end.
(** 444-456 read_symmetryreduced_rvert at a grid point *)
Definition read_reduced (c : cfg) (k : kcl) (ch : chan) (y : indices) (readMe : buffer) : option cplx :=
  if match channel_rvert y, ch with Ca, Ca => true | Cp, Cp => true | Ct, Ct => true | _, _ => false end then
    let value := readMe (key_of k y) in
    let value := if (keldysh c || negb (phs c)) && conjugate y then Cconj value else value in
    Some (Cscale (prefactor y) value)
  else None.
(** 1849-1850, 1900-1902: points next to the edge of the frequency box are dropped at finite temperature *)
Definition edge (c : cfg) (k : kcl) (wlower : Q) (p : key) : option bool :=
  if mf c then
    r <- corr c (kw p) ;;
    let below x := negb (Qle_bool wlower (- x + r * (1 # 2))%Q) in
    Some match k with k2 => below (kv1 p) | k3 => below (kv1 p) || below (kv2 p) | _ => false end
  else Some false.
(** one iteration of the loop; [related] is vertex_symmrelated ([None]: the vertex itself) *)
Definition enforce_step (c : cfg) (k : kcl) (ch : chan) (wlower : Q) (related : option buffer)
    (d : buffer) (p : key) : option buffer :=
  i <- trafo_index c ch k p ;;
  y <- Ti c false (start ch p) i ;;
  d1 <- (if i =? 0 then Some d
         else v <- read_reduced c k ch y
                     (if asymmetry_transform y then match related with Some e => e | None => d end else d) ;;
              Some (upd d p v)) ;;
  z <- components (keldysh c) false ch k (spin y) (iK y) ;;
  let d2 := if z <? 0 then upd d1 p C0 else d1 in
  e <- edge c k wlower p ;;
  Some (if e then upd d2 p C0 else d2).
(** the loop over all entries in some order *)
Fixpoint enforce (c : cfg) (k : kcl) (ch : chan) (wlower : Q) (related : option buffer)
    (ps : list key) (d : buffer) : option buffer :=
  match ps with
  | [] => Some d
  | p :: r => d' <- enforce_step c k ch wlower related d p ;; enforce c k ch wlower related r d'
  end.

(** bubble/bubble_function.hpp:735-880 get_trafo_K1/K2/K3 = 0 (the point is integrated) for
    DEBUG_SYMMETRIES 0 and VECTORIZED_INTEGRATION 1 *)
Definition computed (c : cfg) (ch : chan) (k : kcl) (p : key) : option bool :=
  if keldysh c then
    match k with
    | k1 => i <- trafo_index c ch k p ;; Some (i =? 0)
    | k2 => i <- trafo_index c ch k p ;; Some (i =? 0)
    | k3 =>
        i <- nth_error (freq_transformations c ch k3)
               (Z.to_nat (sign_index (kw p) * 4 + sign_index (kv1 p + kv2 p)%Q * 2 + sign_index (kv1 p - kv2 p)%Q)) ;;
        Some (i =? 0)
    | k2b => None
    end
  else Some (sign_index (kw p) =? 0).
