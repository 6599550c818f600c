(** Numerical differentiation of utilities/math_utils.hpp:335-680 on non-uniform grids.
    Data and grid points are rationals (doubles are rationals; rounding is not modelled). The element type is real. *)
From Coq Require Import QArith.
From Verif Require Import Prelude Idx_Model.
Open Scope Z_scope.

(** integers a, a+1, ..., b-1 *)
Definition zrange (a b : Z) : list Z := map (fun k => a + Z.of_nat k) (seq 0 (Z.to_nat (b - a))).

(** product of f over a list, failing if f fails *)
Fixpoint oprod (f : Z -> option Q) (l : list Z) (acc : Q) : option Q :=
  match l with
  | [] => Some acc
  | j :: r => v <- f j ;; oprod f r (acc * v)%Q
  end.

(** utilities/math_utils.hpp:411-436 get_finite_differences_helper.
    [getx i] is xs[jt+i], [getd i] is data[rotateFlatIndex(it_dimsum+jt+i, ...)]; reads outside give [None].
    The assertions on the size of the denominators (419,423) are those of a debug build and not modelled;
    for coinciding grid points the C++ code divides by zero, which the theorems exclude. *)
Definition fd_term (getx : Z -> option Q) (no_i : list Z) (lower upper i : Z) : option (Q * Q) :=
  xi <- getx i ;; x0 <- getx 0 ;;
  den1 <- oprod (fun j => xj <- getx j ;; Some (xi - xj)%Q) (zrange lower i) 1%Q ;;
  den <- oprod (fun j => xj <- getx j ;; Some (xi - xj)%Q) (zrange (i + 1) (upper + 1)) den1 ;;
  num <- oprod (fun j => xj <- getx j ;; Some (x0 - xj)%Q) no_i 1%Q ;;
  Some ((num / (x0 - xi) / den)%Q, (1 / (x0 - xi))%Q).

Fixpoint fd_sum (getx getd : Z -> option Q) (no_i : list Z) (lower upper : Z) (is : list Z) (result pref : Q) : option Q :=
  match is with
  | [] => d0 <- getd 0 ;; Some (result + pref * d0)%Q
  | i :: r =>
      t <- fd_term getx no_i lower upper i ;;
      d <- getd i ;;
      fd_sum getx getd no_i lower upper r (result + fst t * d)%Q (pref + snd t)%Q
  end.

Definition fd_helper (getx getd : Z -> option Q) (no_i : list Z) (lower upper : Z) : option Q :=
  fd_sum getx getd no_i lower upper no_i 0%Q 0%Q.

(** list access with an integer index; outside the vector is undefined behaviour *)
Definition zget {A} (l : list A) (i : Z) : option A := if i <? 0 then None else nth_error l (Z.to_nat i).

(** the stencil chosen at position jt, utilities/math_utils.hpp:495-515 *)
Definition fd_stencil (dimsum jt : Z) : list Z * Z * Z :=
  if jt =? 0 then ([1;2;3;4], 0, 4)
  else if jt =? 1 then ([-1;1;2;3], -1, 3)
  else if jt =? dimsum - 2 then ([-3;-2;-1;1], -3, 1)
  else if jt =? dimsum - 1 then ([-4;-3;-2;-1], -4, 0)
  else ([-2;-1;1;2], -2, 2).

(** utilities/math_utils.hpp:476-521 get_finite_differences_v2. The two loops are collapsed and run in
    parallel; every (it,jt) writes its own element, the order chosen here is the serial one. *)
Definition fd_value (data xs : list Q) (dims : list Z) (perm : list nat) (dimsum : Z) (p : Z * Z) : option Q :=
  let '(it, jt) := p in
  let '(no_i, lower, upper) := fd_stencil dimsum jt in
  fd_helper (fun i => zget xs (jt + i))
            (fun i => k <- rotateFlatIndexPerm (it * dimsum + jt + i) dims perm ;; zget data k)
            no_i lower upper.

Definition get_finite_differences_v2 (data xs : list Q) (dims : list Z) (perm : list nat) : option (list Q) :=
  let flatdim := Z.of_nat (length data) in
  dimsum <- nth_error dims (length dims - 1) ;;
  if negb (dimsum =? Z.of_nat (length xs)) then None else
  if dimsum <? 5 then None else
  let codimsum := flatdim / dimsum in
  fold_left (fun acc p =>
      r <- acc ;; v <- fd_value data xs dims perm dimsum p ;;
      k <- rotateFlatIndexPerm (fst p * dimsum + snd p) dims perm ;;
      oupd r (Z.to_nat k) v)
    (list_prod (zrange 0 codimsum) (zrange 0 dimsum)) (Some (repeat 0%Q (length data))).

(** utilities/math_utils.hpp:639-652 partial_deriv of a vector along dimension i_dim *)
Definition partial_deriv_vec (data xs : list Q) (dims : list Z) (i_dim : nat) : option (list Q) :=
  let rank := length dims in
  if (rank <=? i_dim)%nat then None else
  dims_permuted <- permuteCyclic dims (rank - i_dim - 1) ;;
  let permutation := map (fun i => (i + rank - i_dim - 1)%nat) (seq 0 (i_dim + 1))
                  ++ map (fun i => (i - i_dim - 1)%nat) (seq (i_dim + 1) (rank - i_dim - 1)) in
  get_finite_differences_v2 data xs dims_permuted permutation.

(** utilities/math_utils.hpp:350-409 get_finite_differences (first version) at one position of a fibre: the
    coefficients of a uniform grid, with h taken from neighbouring grid points *)
Definition fd_uniform (getx getd : Z -> option Q) (dimsum jt : Z) : option Q :=
  let lin := fix lin (l : list (Z * Q)) : option Q :=
    match l with [] => Some 0%Q | (i, c) :: r => d <- getd i ;; s <- lin r ;; Some (d * c + s)%Q end in
  let h_fwd := (x1 <- getx 1 ;; x0 <- getx 0 ;; Some (x1 - x0)%Q) in
  let h_bwd := (x0 <- getx 0 ;; xm <- getx (-1) ;; Some (x0 - xm)%Q) in
  if jt =? 0 then h <- h_fwd ;; s <- lin [(0, (-25#1)); (1, 48#1); (2, (-36#1)); (3, 16#1); (4, (-3#1))] ;; Some (s / (h * 12))%Q
  else if jt =? 1 then h <- h_fwd ;; s <- lin [(-1, (-3#1)); (0, (-10#1)); (1, 18#1); (2, (-6#1)); (3, 1#1)] ;; Some (s / (h * 12))%Q
  else if jt =? dimsum - 2 then h <- h_bwd ;; s <- lin [(-3, (-1#1)); (-2, 6#1); (-1, (-18#1)); (0, 10#1); (1, 3#1)] ;; Some (s / (h * 12))%Q
  else if jt =? dimsum - 1 then h <- h_bwd ;; s <- lin [(-4, 3#1); (-3, (-16#1)); (-2, 36#1); (-1, (-48#1)); (0, 25#1)] ;; Some (s / (h * 12))%Q
  else h <- h_fwd ;; s <- lin [(-2, 1#1); (-1, (-8#1)); (1, 8#1); (2, (-1#1))] ;; Some (s / (12 * h))%Q.

(** utilities/math_utils.hpp:81-102 lagrangePoly: one summand and the sum *)
Fixpoint lag_prod (x xi : Q) (others : list Q) (num den : Q) : Q * Q :=
  match others with
  | [] => (num, den)
  | xk :: r => lag_prod x xi r (num * (x - xk))%Q (den * (xi - xk))%Q
  end.

Fixpoint lagrange_sum (x : Q) (before xs ys : list Q) (result : Q) : Q :=
  match xs, ys with
  | xi :: xs', yi :: ys' =>
      let '(num, den) := lag_prod x xi (before ++ xs') 1%Q 1%Q in
      lagrange_sum x (before ++ [xi]) xs' ys' (result + yi * num / den)%Q
  | _, _ => result
  end.
Definition lagrangePoly (x : Q) (xs ys : list Q) : Q := lagrange_sum x [] xs ys 0%Q.
