(** Keldysh index bookkeeping, the pair of propagators ("bubble") and the summation over the
    internal Keldysh and spin indices of a bubble diagram.
    Default configuration: KELDYSH_FORMALISM 1, CONTOUR_BASIS 0, VECTORIZED_INTEGRATION 1,
    SWITCH_SUM_N_INTEGRAL 1, DEBUG_SYMMETRIES 1.  Values are complex numbers (Cplx.v),
    frequencies are rationals, the internal index i_in is dropped (it is only passed through). *)
From Coq Require Import QArith.
From Verif Require Import Prelude Idx_Model Cplx.
Open Scope Z_scope.

(** template parameter [char channel]; other characters are rejected by static_assert *)
Inductive chan := Ca | Cp | Ct.

(** ** symmetries/Keldysh_symmetries.c++ *)

(** lines 4-14 iK_to_alphas: four passes with base 8, 4, 2, 1 (C++ int division truncates) *)
Fixpoint iK_to_alphas_loop (n : nat) (index base : Z) : list Z :=
  match n with
  | O => []
  | S m => let q := Z.quot index base in
           (q + 1) :: iK_to_alphas_loop m (index - q * base) (Z.quot base 2)
  end.
Definition iK_to_alphas (index : Z) : list Z := iK_to_alphas_loop 4 index 8.

(** lines 16-25 alphas_to_iK; [None]: the assertion iK>=0 fails, or an array of other length *)
Definition alphas_to_iK (alphas : list Z) : option Z :=
  match alphas with
  | [a0; a1; a2; a3] =>
      let iK := 0 + (a3 - 1) * 1 + (a2 - 1) * 2 + (a1 - 1) * 4 + (a0 - 1) * 8 in
      if iK >=? 0 then Some iK else None
  | _ => None
  end.

(** lines 27-51 indices_sum *)
Definition indices_sum (i0 i2 : Z) (ch : chan) : option (Z * Z) :=
  match iK_to_alphas i0, iK_to_alphas i2 with
  | [x0; x1; x2; x3], [y0; y1; y2; y3] =>
      Some match ch with
           | Ca => (8 * (x0 - 1) + 4 * (y3 - 1) + 2 * (y0 - 1) + 1 * (x3 - 1),
                    8 * (y2 - 1) + 4 * (x1 - 1) + 2 * (x2 - 1) + 1 * (y1 - 1))
           | Cp => (8 * (x0 - 1) + 4 * (x1 - 1) + 2 * (y0 - 1) + 1 * (y1 - 1),
                    8 * (y2 - 1) + 4 * (y3 - 1) + 2 * (x2 - 1) + 1 * (x3 - 1))
           | Ct => (8 * (y3 - 1) + 4 * (x1 - 1) + 2 * (y0 - 1) + 1 * (x3 - 1),
                    8 * (x0 - 1) + 4 * (y2 - 1) + 2 * (x2 - 1) + 1 * (y1 - 1))
           end
  | _, _ => None
  end.

(** ** symmetries/Keldysh_symmetries.hpp *)

(** line 177 *)
Definition glb_non_zero_Keldysh_bubble : list Z := [3; 6; 7; 9; 11; 12; 13; 14; 15].
(** line 217 *)
Definition odd_Keldysh : list Z := [1; 2; 4; 7; 8; 11; 13; 14].
(** lines 241-244 isInList *)
Definition isInList (v : Z) (l : list Z) : bool := existsb (Z.eqb v) l.

(** lines 254-272 get_i0_left_right *)
Definition get_i0_left_right (ch : chan) (iK : Z) : option (Z * Z) :=
  al <- getMultIndex iK [2; 2; 2; 2] ;;
  match al with
  | [a0; a1; a2; a3] =>
      Some match ch with
           | Ca => (a0 * 2 + a3, a2 * 2 + a1)
           | Cp => (a0 * 2 + a1, a2 * 2 + a3)
           | Ct => (a1 * 2 + a3, a2 * 2 + a0)
           end
  | _ => None
  end.

(** common end of rotate/unrotate: iK_read = left*4+right with the assertion iK_read < 16 *)
Definition combine_lr (lr : Z * Z) : option Z :=
  let iK_read := fst lr * 4 + snd lr in
  if iK_read <? 16 then Some iK_read else None.

(** lines 275-319 rotate_Keldysh_matrix *)
Definition rotate_Keldysh_matrix (ch : chan) (is_left : bool) (iK : Z) : option Z :=
  al <- getMultIndex iK [2; 2; 2; 2] ;;
  match al with
  | [a0; a1; a2; a3] =>
      combine_lr match ch, is_left with
                 | Ca, true => (a0 * 2 + a3, a2 * 2 + a1)
                 | Ca, false => (a2 * 2 + a1, a0 * 2 + a3)
                 | Cp, true => (a0 * 2 + a1, a2 * 2 + a3)
                 | Cp, false => (a2 * 2 + a3, a0 * 2 + a1)
                 | Ct, true => (a3 * 2 + a0, a2 * 2 + a1)
                 | Ct, false => (a1 * 2 + a2, a0 * 2 + a3)
                 end
  | _ => None
  end.

(** lines 322-366 unrotate_Keldysh_matrix *)
Definition unrotate_Keldysh_matrix (ch : chan) (is_left : bool) (iK : Z) : option Z :=
  al <- getMultIndex iK [2; 2; 2; 2] ;;
  match al with
  | [a0; a1; a2; a3] =>
      combine_lr match ch, is_left with
                 | Ca, true => (a0 * 2 + a3, a2 * 2 + a1)
                 | Ca, false => (a2 * 2 + a1, a0 * 2 + a3)
                 | Cp, true => (a0 * 2 + a1, a2 * 2 + a3)
                 | Cp, false => (a2 * 2 + a3, a0 * 2 + a1)
                 | Ct, true => (a1 * 2 + a3, a2 * 2 + a0)
                 | Ct, false => (a2 * 2 + a0, a1 * 2 + a3)
                 end
  | _ => None
  end.

(** ** bubble/bubble.hpp *)

(** What a bubble uses of a propagator: valsmooth(0,v), the retarded, and valsmooth(1,v), the
    Keldysh component (correlation_functions/two_point/propagator.hpp:355-505; any other
    component is a failed assertion and is never requested here). *)
Record prop := Prop_ { gR : Q -> cplx; gK : Q -> cplx }.

(** bubble/bubble.hpp:46-126 Bubble::value, Keldysh branch.  The final assertion (finite result)
    always holds: values are finite by construction. *)
Definition bubble_value (diff : bool) (g s : prop) (iK : Z) (v1 v2 : Q) : cplx :=
  (if diff then
     match iK with
     | 3 => Cconj (gR g v1) * Cconj (gR s v2) + Cconj (gR s v1) * Cconj (gR g v2)
     | 6 => Cconj (gR g v1) * gR s v2 + Cconj (gR s v1) * gR g v2
     | 7 => Cconj (gR g v1) * gK s v2 + Cconj (gR s v1) * gK g v2
     | 9 => gR g v1 * Cconj (gR s v2) + gR s v1 * Cconj (gR g v2)
     | 11 => gK g v1 * Cconj (gR s v2) + gK s v1 * Cconj (gR g v2)
     | 12 => gR g v1 * gR s v2 + gR s v1 * gR g v2
     | 13 => gR g v1 * gK s v2 + gR s v1 * gK g v2
     | 14 => gK g v1 * gR s v2 + gK s v1 * gR g v2
     | 15 => gK g v1 * gK s v2 + gK s v1 * gK g v2
     | _ => C0
     end
   else
     match iK with
     | 3 => Cconj (gR g v1) * Cconj (gR g v2)
     | 6 => Cconj (gR g v1) * gR g v2
     | 7 => Cconj (gR g v1) * gK g v2
     | 9 => gR g v1 * Cconj (gR g v2)
     | 11 => gK g v1 * Cconj (gR g v2)
     | 12 => gR g v1 * gR g v2
     | 13 => gR g v1 * gK g v2
     | 14 => gK g v1 * gR g v2
     | 15 => gK g v1 * gK g v2
     | _ => C0
     end)%C.

(** bubble/bubble.hpp:163-191 value with channel (KELDYSH: no rounding of w/2) *)
Definition bubble_value_ch (diff : bool) (g s : prop) (iK : Z) (w vpp : Q) (ch : chan) : cplx :=
  (let h := w / 2 in
   match ch with
   | Ca => bubble_value diff g s iK (vpp - h) (vpp + h)
   | Cp => bubble_value diff g s iK (h + vpp) (h - vpp)
   | Ct => bubble_value diff g s iK (vpp - h) (vpp + h)
   end)%Q.

(** bubble/bubble.hpp:193-216 convert_to_fermionic_frequencies_1/2 *)
Definition convert_1 (ch : chan) (vpp w : Q) : Q :=
  (match ch with Cp => vpp + w * (1 # 2) | _ => vpp - w * (1 # 2) end)%Q.
Definition convert_2 (ch : chan) (vpp w : Q) : Q :=
  (match ch with Cp => w * (1 # 2) - vpp | _ => vpp + w * (1 # 2) end)%Q.

(** matrices: lists of rows, read with [mget] *)
Definition mat := list (list cplx).
Definition mget (m : mat) (i j : nat) : cplx := nth j (nth i m []) C0.

(** correlation_functions/two_point/propagator.hpp:508-611 valsmooth_vectorized *)
Definition valsmooth_vectorized (g : prop) (v : Q) : mat :=
  [ [C0; Cconj (gR g v)];
    [gR g v; gK g v] ].

(** bubble/bubble.hpp:221-292 value_vectorized, as a function of the propagator matrices *)
Definition value_vectorized_mat (ch : chan) (diff : bool) (G1 G2 S1 S2 : mat) : mat :=
  (let G00_1 := mget G1 0 0 in let G01_1 := mget G1 0 1 in
   let G10_1 := mget G1 1 0 in let G11_1 := mget G1 1 1 in
   let G00_2 := mget G2 0 0 in let G01_2 := mget G2 0 1 in
   let G10_2 := mget G2 1 0 in let G11_2 := mget G2 1 1 in
   if diff then
     let S00_1 := mget S1 0 0 in let S01_1 := mget S1 0 1 in
     let S10_1 := mget S1 1 0 in let S11_1 := mget S1 1 1 in
     let S00_2 := mget S2 0 0 in let S01_2 := mget S2 0 1 in
     let S10_2 := mget S2 1 0 in let S11_2 := mget S2 1 1 in
     match ch with
     | Cp =>
       [ [S00_1*G00_2 + G00_1*S00_2; S00_1*G01_2 + G00_1*S01_2; S01_1*G00_2 + G01_1*S00_2; S01_1*G01_2 + G01_1*S01_2];
         [S00_1*G10_2 + G00_1*S10_2; S00_1*G11_2 + G00_1*S11_2; S01_1*G10_2 + G01_1*S10_2; S01_1*G11_2 + G01_1*S11_2];
         [S10_1*G00_2 + G10_1*S00_2; S10_1*G01_2 + G10_1*S01_2; S11_1*G00_2 + G11_1*S00_2; S11_1*G01_2 + G11_1*S01_2];
         [S10_1*G10_2 + G10_1*S10_2; S10_1*G11_2 + G10_1*S11_2; S11_1*G10_2 + G11_1*S10_2; S11_1*G11_2 + G11_1*S11_2] ]
     | _ =>
       [ [S00_1*G00_2 + G00_1*S00_2; S00_1*G10_2 + G00_1*S10_2; S01_1*G00_2 + G01_1*S00_2; S01_1*G10_2 + G01_1*S10_2];
         [S00_1*G01_2 + G00_1*S01_2; S00_1*G11_2 + G00_1*S11_2; S01_1*G01_2 + G01_1*S01_2; S01_1*G11_2 + G01_1*S11_2];
         [S10_1*G00_2 + G10_1*S00_2; S10_1*G10_2 + G10_1*S10_2; S11_1*G00_2 + G11_1*S00_2; S11_1*G10_2 + G11_1*S10_2];
         [S10_1*G01_2 + G10_1*S01_2; S10_1*G11_2 + G10_1*S11_2; S11_1*G01_2 + G11_1*S01_2; S11_1*G11_2 + G11_1*S11_2] ]
     end
   else
     match ch with
     | Cp =>
       [ [G00_1*G00_2; G00_1*G01_2; G01_1*G00_2; G01_1*G01_2];
         [G00_1*G10_2; G00_1*G11_2; G01_1*G10_2; G01_1*G11_2];
         [G10_1*G00_2; G10_1*G01_2; G11_1*G00_2; G11_1*G01_2];
         [G10_1*G10_2; G10_1*G11_2; G11_1*G10_2; G11_1*G11_2] ]
     | _ =>
       [ [G00_1*G00_2; G00_1*G10_2; G01_1*G00_2; G01_1*G10_2];
         [G00_1*G01_2; G00_1*G11_2; G01_1*G01_2; G01_1*G11_2];
         [G10_1*G00_2; G10_1*G10_2; G11_1*G00_2; G11_1*G10_2];
         [G10_1*G01_2; G10_1*G11_2; G11_1*G01_2; G11_1*G11_2] ]
     end)%C.

Definition value_vectorized (ch : chan) (diff : bool) (g s : prop) (w vpp : Q) : mat :=
  value_vectorized_mat ch diff
    (valsmooth_vectorized g (convert_1 ch vpp w)) (valsmooth_vectorized g (convert_2 ch vpp w))
    (valsmooth_vectorized s (convert_1 ch vpp w)) (valsmooth_vectorized s (convert_2 ch vpp w)).

(** propagator.hpp:528-536: the matrix in the contour basis (CONTOUR_BASIS 1) *)
Definition valsmooth_vectorized_contour (g : prop) (v : Q) : mat :=
  (let GR_ := gR g v in let GA_ := Cconj (gR g v) in let GK_ := gK g v in
   [ [Cscale (1 # 2) (GA_ + GR_ + GK_); Cscale (1 # 2) (GA_ - GR_ + GK_)];
     [Cscale (1 # 2) (- GA_ + GR_ + GK_); Cscale (1 # 2) (- GA_ - GR_ + GK_)] ])%C.
Definition value_vectorized_contour (ch : chan) (diff : bool) (g s : prop) (w vpp : Q) : mat :=
  value_vectorized_mat ch diff
    (valsmooth_vectorized_contour g (convert_1 ch vpp w)) (valsmooth_vectorized_contour g (convert_2 ch vpp w))
    (valsmooth_vectorized_contour s (convert_1 ch vpp w)) (valsmooth_vectorized_contour s (convert_2 ch vpp w)).

(** ** bubble/integrand.hpp *)

(** A vertex is given by its sixteen Keldysh components [V : Z -> cplx] (at fixed frequencies).
    correlation_functions/four_point/r_vertex.hpp:874-877, 903-906, 930-933, 960-963 (symmetry
    expansion): entry iK of the buffer holds the component rotate_Keldysh_matrix(iK). *)
Definition symmetry_expanded (ch : chan) (is_left : bool) (V : Z -> cplx) : option (list cplx) :=
  osequence (map (fun iK => r <- rotate_Keldysh_matrix ch is_left iK ;; Some (V r))
                 [0; 1; 2; 3; 4; 5; 6; 7; 8; 9; 10; 11; 12; 13; 14; 15]).

Definition mk4 (f : nat -> nat -> cplx) : mat :=
  map (fun i => map (f i) [0; 1; 2; 3]%nat) [0; 1; 2; 3]%nat.

(** Eigen: a 16x1 matrix resized to 4x4 is read in column-major order *)
Definition resize44 (l : list cplx) : mat := mk4 (fun i j => nth (j * 4 + i) l C0).
Definition transpose44 (m : mat) : mat := mk4 (fun i j => mget m j i).
Definition mmul (a b : mat) : mat :=
  mk4 (fun i j => (mget a i 0 * mget b 0 j + mget a i 1 * mget b 1 j
                   + mget a i 2 * mget b 2 j + mget a i 3 * mget b 3 j)%C).
Definition madd (a b : mat) : mat := mk4 (fun i j => (mget a i j + mget b i j)%C).

(** bubble/integrand.hpp:545-560 load_vertex_keldyshComponents_left_vectorized *)
Definition load_left (ch : chan) (V : Z -> cplx) : option mat :=
  l <- symmetry_expanded ch true V ;; Some (transpose44 (resize44 l)).
(** bubble/integrand.hpp:563-580 load_vertex_keldyshComponents_right_vectorized *)
Definition load_right (ch : chan) (V : Z -> cplx) : option mat :=
  l <- symmetry_expanded ch false V ;; Some (resize44 l).

(** bubble/integrand.hpp:1160-1215 sum_over_internal_vectorized without SBE decomposition.
    [VL sp], [VR sp]: left and right vertex with spin component [sp] (0 or 1). *)
Definition sum_over_internal_vectorized (ch : chan) (spin : Z) (VL VR : Z -> Z -> cplx) (Pi : mat)
  : option mat :=
  l <- load_left ch (VL spin) ;;
  r <- load_right ch (VR spin) ;;
  l' <- load_left ch (VL (1 - spin)) ;;
  r' <- load_right ch (VR (1 - spin)) ;;
  match ch, spin with
  | Ct, 0 | Ca, 1 => Some (madd (mmul (mmul (madd l l') Pi) r) (mmul (mmul l Pi) (madd r r')))
  | Cp, 1 => Some (mmul (mmul l Pi) r')
  | _, _ => Some (mmul (mmul l Pi) r)
  end.

(** bubble/bubble_function.hpp:512-521: entry (i,j) of the result is written to
    value[rotate_Keldysh_matrix<channel,true>(i*4+j)]; the array has 16 entries. *)
Definition store_result (ch : chan) (res : mat) : option (list cplx) :=
  fold_left (fun acc ij => v <- acc ;;
                           k <- rotate_Keldysh_matrix ch true (Z.of_nat (fst ij * 4 + snd ij)) ;;
                           oupd v (Z.to_nat k) (mget res (fst ij) (snd ij)))
            (list_prod [0; 1; 2; 3]%nat [0; 1; 2; 3]%nat) (Some (repeat C0 16)).

(** everything together: the 16 Keldysh components of the integrand *)
Definition integrand_vectorized (ch : chan) (spin : Z) (VL VR : Z -> Z -> cplx) (Pi : mat)
  : option (list cplx) :=
  m <- sum_over_internal_vectorized ch spin VL VR Pi ;; store_result ch m.

(** bubble/integrand.hpp:856-1000 sum_over_internal_scalar (no SBE): one external Keldysh index
    i0; 236-241: i0_left = left*4, i0_right = right*4; 495-542: entries i0_left+0..3 and
    i0_right+0..3 of the expanded vertices.  Spin component 2 is V+Vhat
    (vertex.hpp/r_vertex.hpp: spin==2 sums the two components). *)
Definition row4 (l : list cplx) (start : Z) : list cplx :=
  map (fun k => nth (Z.to_nat start + k) l C0) [0; 1; 2; 3]%nat.
Definition vmv (l : list cplx) (Pi : mat) (r : list cplx) : cplx :=
  (let e i := nth i l C0 in
   let lp j := e 0%nat * mget Pi 0 j + e 1%nat * mget Pi 1 j + e 2%nat * mget Pi 2 j + e 3%nat * mget Pi 3 j in
   lp 0%nat * nth 0 r C0 + lp 1%nat * nth 1 r C0 + lp 2%nat * nth 2 r C0 + lp 3%nat * nth 3 r C0)%C.
Definition sum_over_internal_scalar (ch : chan) (spin i0 : Z) (VL VR : Z -> Z -> cplx) (Pi : mat)
  : option cplx :=
  lr <- get_i0_left_right ch i0 ;;
  let iL := fst lr * 4 in let iR := snd lr * 4 in
  let left V := x <- symmetry_expanded ch true V ;; Some (row4 x iL) in
  let right V := x <- symmetry_expanded ch false V ;; Some (row4 x iR) in
  l <- left (VL spin) ;;
  r <- right (VR spin) ;;
  match ch, spin with
  | Ct, 0 | Ca, 1 =>
      lu <- left (fun k => (VL 0 k + VL 1 k)%C) ;;
      ru <- right (fun k => (VR 0 k + VR 1 k)%C) ;;
      Some (vmv lu Pi r + vmv l Pi ru)%C
  | Cp, 1 => r' <- right (VR (1 - spin)) ;; Some (vmv l Pi r')
  | _, _ => Some (vmv l Pi r)
  end.

(** bubble/integrand.hpp:298-355 (SWITCH_SUM_N_INTEGRAL 0): one term for given i0, i2, i_spin,
    vertices read through indices_sum as in compute_vertices, 412-490, with all frequencies fixed *)
Definition integrand_term (ch : chan) (spin i_spin i0 i2 : Z) (VL VR : Z -> Z -> cplx) (Pival : cplx)
  : option cplx :=
  ix <- indices_sum i0 i2 ch ;;
  let lV := VL spin (fst ix) in let lVh := VL (1 - spin) (fst ix) in
  let rV := VR spin (snd ix) in let rVh := VR (1 - spin) (snd ix) in
  match ch, spin with
  | Ct, 0 | Ca, 1 =>
      match i_spin with
      | 0 => Some (Cofq 2 * lV * Pival * rV)%C
      | 1 => Some (lV * Pival * rVh)%C
      | 2 => Some (lVh * Pival * rV)%C
      | _ => None
      end
  | Cp, 1 => Some (lV * Pival * rVh)%C
  | _, _ => Some (lV * Pival * rV)%C
  end.

(** bubble/bubble_function.hpp:405-470 (SWITCH_SUM_N_INTEGRAL 0): loops over the non-zero bubble
    components and over i_spin < n_spin_sum (3 for (t,0),(a,1), else 1) *)
Definition n_spin_sum (ch : chan) (spin : Z) : list Z :=
  match ch, spin with Ct, 0 | Ca, 1 => [0; 1; 2] | _, _ => [0] end.
Definition integrand_by_components (ch : chan) (spin i0 : Z) (VL VR : Z -> Z -> cplx) (Pi : Z -> cplx)
  : option cplx :=
  fold_left (fun acc p => a <- acc ;; t <- integrand_term ch spin (snd p) i0 (fst p) VL VR (Pi (fst p)) ;;
                          Some (a + t)%C)
            (list_prod glb_non_zero_Keldysh_bubble (n_spin_sum ch spin)) (Some C0).

(** ** Keldysh structure of the single-boson exchange products (SBE_DECOMPOSITION 1)
    correlation_functions/four_point/r_vertex.hpp: combine_SBE_to_K2 994-1123,
    combine_SBE_to_K2b 1127-1250, combine_SBE_to_K3_SBE 1253-1378.  Frequencies fixed. *)
(** lines 1035, 1058, 1113 …: entry iK is read from entry unrotate<from>(rotate<to>(iK)) *)
Definition relayout (from to : chan) (is_left : bool) (l : list cplx) : option (list cplx) :=
  osequence (map (fun iK => r <- rotate_Keldysh_matrix to is_left iK ;;
                            u <- unrotate_Keldysh_matrix from is_left r ;;
                            nth_error l (Z.to_nat u))
                 [0; 1; 2; 3; 4; 5; 6; 7; 8; 9; 10; 11; 12; 13; 14; 15]).
(** resize(16,1): column-major flattening *)
Definition flatten44 (m : mat) : list cplx :=
  map (fun k => mget m (Nat.modulo k 4) (Nat.div k 4)) (seq 0 16).
(** [first]/[second]: the factors in the order "left * right" of the diagram; lines 1087, 1219
    and 1348: for a left vertex the factors are exchanged *)
Definition combine_SBE (ch_bubble ch_rvert : chan) (is_left : bool) (first second : list cplx)
  : option (list cplx) :=
  f <- relayout ch_bubble ch_rvert is_left first ;;
  s <- relayout ch_bubble ch_rvert is_left second ;;
  let F := resize44 f in let S := resize44 s in
  relayout ch_rvert ch_bubble is_left (flatten44 (if is_left then mmul S F else mmul F S)).
(** K2 = lambda * w, K2' = w * lambdabar, K3_SBE = K2 * lambdabar *)
Definition combine_SBE_to_K2 chb chr is_left (w lambda : list cplx) := combine_SBE chb chr is_left lambda w.
Definition combine_SBE_to_K2b chb chr is_left (w lambda : list cplx) := combine_SBE chb chr is_left w lambda.
Definition combine_SBE_to_K3_SBE chb chr is_left (K2 lambda : list cplx) := combine_SBE chb chr is_left K2 lambda.
