(** Model of the resolution measures of DataContainer (correlation_functions/n_point/data_container.hpp:210-333), the cost
    functions of the optimisation of the frequency grids (data_buffer.hpp:438, 467). The derivative of a multiarray is
    [Arr_Model.partial_deriv], applied to real and imaginary part. Every returned number is the square of a modulus, so
    that no square root appears; exact arithmetic, one NaN value. *)
From Coq Require Import QArith.
From Verif Require Import Prelude Idx_Model Arr_Model Vec_Model.
Open Scope Z_scope.

Record cdat := mkD { dd : list Z; dre : list Q; dim : list Q }.

(** 210-221 get_deriv_x/y/z; pos + 0, 1, 2 is the dimension *)
Definition cderiv (x : cdat) (i : nat) : option cdat :=
  r <- partial_deriv (mk_marray_buf (dd x) (dre x)) i ;;
  m <- partial_deriv (mk_marray_buf (dd x) (dim x)) i ;;
  Some (mkD (dd x) r m).
(** 223-227 get_deriv_xx etc. *)
Definition cderiv2 (x : cdat) (first second : nat) : option cdat := y <- cderiv x first ;; cderiv y second.
(** math_utils.hpp:793-806 power2 *)
Fixpoint abs2 (re im : list Q) : list Q :=
  match re, im with a :: r, b :: i => (a * a + b * b)%Q :: abs2 r i | _, _ => [] end.
Definition power2 (x : cdat) : list Q := abs2 (dre x) (dim x).
Fixpoint addl (u v : list Q) : list Q := match u, v with a :: u', b :: v' => (a + b)%Q :: addl u' v' | _, _ => [] end.
Definition twice (u : list Q) : list Q := map (fun q => q * 2)%Q u.
(** max_norm of a vector of non-negative numbers (data_structures.hpp:379-385), square of max_norm of a multiarray
    (multiarray.hpp:520-532) *)
Definition maxq (l : list Q) : Q := fold_left (fun m q => if Qle_bool q m then m else q) l 0%Q.
Definition Kmax2 (x : cdat) : Q := maxq (power2 x).

(** 261-287 get_deriv_max. For Kmax = 0 every entry is 0 * (1/0), and the comparison with NaN in std::max keeps 0. *)
Definition get_deriv_max (nf pos : nat) (x : cdat) : option fl :=
  s <- match nf with
       | 1%nat => a <- cderiv x pos ;; Some (power2 a)
       | 2%nat => b <- cderiv x (pos + 1) ;; a <- cderiv x pos ;; Some (addl (power2 b) (power2 a))
       | 3%nat => c <- cderiv x (pos + 2) ;; b <- cderiv x (pos + 1) ;; a <- cderiv x pos ;;
                  Some (addl (addl (power2 c) (power2 b)) (power2 a))
       | _ => None
       end ;;
  Some (Fin (if Qeq_bool (Kmax2 x) 0 then 0 else maxq s / Kmax2 x)%Q).

(** 288-333 get_curvature_max. For Kmax = 0 one frequency is treated as above, otherwise the result is 0/0. *)
Definition get_curvature_max (nf pos : nat) (x : cdat) : option fl :=
  match nf with
  | 1%nat =>
      xx <- cderiv2 x pos pos ;;
      Some (Fin (if Qeq_bool (Kmax2 x) 0 then 0 else maxq (power2 xx) / Kmax2 x)%Q)
  | 2%nat =>
      xx <- cderiv2 x pos pos ;; yy <- cderiv2 x (pos + 1) (pos + 1) ;; xy <- cderiv2 x (pos + 1) pos ;;
      let s := addl (addl (power2 xx) (power2 yy)) (twice (power2 xy)) in
      Some (if Qeq_bool (Kmax2 x) 0 then NaN else Fin (maxq s / Kmax2 x)%Q)
  | 3%nat =>
      xx <- cderiv2 x pos pos ;; yy <- cderiv2 x (pos + 1) (pos + 1) ;; xy <- cderiv2 x (pos + 1) pos ;;
      zz <- cderiv2 x (pos + 2) (pos + 2) ;; xz <- cderiv2 x (pos + 2) pos ;; yz <- cderiv2 x (pos + 2) (pos + 1) ;;
      let s := addl (addl (addl (power2 xx) (power2 yy)) (power2 zz))
                    (twice (addl (addl (power2 xy) (power2 xz)) (power2 yz))) in
      Some (if Qeq_bool (Kmax2 x) 0 then NaN else Fin (maxq s / Kmax2 x)%Q)
  | _ => None
  end.
