(** Splitting of integration domains and sums over Matsubara frequencies.
    Model of integrator/integrator.hpp:350-540. The integration over a single interval and over the tails is a parameter
    (modelled in Quad_Model). Doubles are real numbers without rounding, integrands are real. *)
From Coq Require Import Reals.
From Verif Require Import Prelude.
Open Scope R_scope.

(** std::sort *)
Fixpoint insert (x : R) (l : list R) : list R := match l with [] => [x] | y :: r => if Rle_dec x y then x :: l else y :: insert x r end.
Definition sort (l : list R) : list R := fold_right insert [] l.

Section Domain.
  (** Adapt<Integrand>(tol, integrand).integrate(a, b) for the two tolerances, and the tails below and above a frequency *)
  Variable peaks tails : R -> R -> R.
  Variable lower upper : R -> R.

  (** 350-375 *)
  Definition integrator_features (a b w1 w2 Delta : R) (isinf : bool) : option R :=
    match sort [a; w1 - Delta; w1 + Delta; w2 - Delta; w2 + Delta; b] with
    | [i0; i1; i2; i3; i4; i5] =>
        let result := 0 + peaks i3 i4 + peaks i1 i2 + tails i0 i1 + tails i2 i3 + tails i4 i5 in
        Some (if isinf then result + lower i0 + upper i5 else result)
    | _ => None
    end.

  (** 383-403; the tails are added to the first interval: without any interval, memory before the vectors is accessed *)
  Definition integrator_list (intervals : list (R * R)) (isinf : bool) : option R :=
    let parts := map (fun p => if Rlt_dec (fst p) (snd p) then peaks (fst p) (snd p) else 0) intervals in
    let sum := fold_right Rplus 0 in
    if isinf then
      match intervals, rev intervals, parts with
      | first :: _, final :: _, r0 :: r => Some (sum (r0 + lower (fst first) + upper (snd final) :: r))
      | _, _, _ => None
      end
    else Some (sum parts).

  (** 428-470 *)
  Definition tol : R := / 10 ^ 10.
  Definition near (w x : R) : bool := if Rlt_dec (Rabs (Rabs x - w)) tol then true else false.
  Definition split_points (vmin vmax w_half : R) (freqs : list R) : R * list R :=
    let base := if Rlt_dec w_half tol then (0, [0; vmin; vmax]) else (w_half, [- w_half; w_half; vmin; vmax]) in
    (fst base, snd base ++ flat_map (fun f => [-1 * f; 1 * f]) freqs).
  (** the intervals found so far, last one first *)
  Definition add_interval (w : R) (acc : list (R * R)) (p q : R) : list (R * R) :=
    if Req_EM_T p q then acc
    else if near w p then (p + tol, q) :: match acc with (lo, hi) :: r => (lo, hi - tol) :: r | [] => [] end
    else (p, q) :: acc.
  Fixpoint intervals_from (w : R) (acc : list (R * R)) (p : R) (l : list R) : list (R * R) :=
    match l with [] => acc | q :: r => intervals_from w (add_interval w acc p q) q r end.
  (** [None]: the last interval is looked up although there is none *)
  Definition intervals_T0 (vmin vmax w_half : R) (freqs : list R) : option (list (R * R)) :=
    let wp := split_points vmin vmax w_half freqs in
    match sort (snd wp) with
    | [] => None
    | p :: l =>
        match intervals_from (fst wp) [] p l with
        | [] => None
        | (lo, hi) :: r => Some (rev ((lo, if near (fst wp) hi then hi - tol else hi) :: r))
        end
    end.
  Definition integrator_Matsubara_T0 (vmin vmax w_half : R) (freqs : list R) (isinf : bool) : option R :=
    l <- intervals_T0 vmin vmax w_half freqs ;; integrator_list l isinf.
End Domain.

(** 476-491; a negative number of terms is no size of a vector *)
Definition matsubarasum (integrand : Z -> R) (Nmin Nmax : Z) : option R :=
  let N := (Nmax - Nmin + 1)%Z in
  if (N <? 0)%Z then None
  else Some (fold_left (fun result i => result + integrand ((Nmin + Z.of_nat i) * 2 + 1)%Z) (seq 0 (Z.to_nat N)) 0).

(** 493-540. Matrices of unset numbers, filled block by block; [ns]: components of the spin sum *)
Definition matrix := nat -> nat -> option R.
Definition unset : matrix := fun _ _ => None.
Definition set (m : matrix) (i j : nat) (x : R) : matrix := fun i' j' => if (i' =? i)%nat && (j' =? j)%nat then Some x else m i' j'.
Section Vectorised.
  Variable ns : nat.
  Variable Pi : Z -> nat -> R.
  Variable left : Z -> Z -> nat -> R.     (* v1, v2, spin component *)
  Variable right : Z -> Z -> nat -> R.
  Definition range (Nmin Nmax : Z) : list Z := map (fun k => (Nmin + Z.of_nat k)%Z) (seq 0 (Z.to_nat (Nmax - Nmin + 1))).
  Definition set_row (m : matrix) (i j : nat) (x : nat -> R) : matrix := fold_left (fun m s => set m i (j + s) (x s)) (seq 0 ns) m.
  Definition set_col (m : matrix) (i j : nat) (x : nat -> R) : matrix := fold_left (fun m s => set m (i + s) j (x s)) (seq 0 ns) m.
  Definition Pi_values (Nmin Nmax : Z) : matrix :=
    fold_left (fun m i => set_col m (Z.to_nat (- Nmin + i) * ns) 0 (Pi (i * 2 + 1))) (range Nmin Nmax) unset.
  Definition values_left (Nmin_v Nmax_v Nmin Nmax : Z) : matrix :=
    fold_left (fun m i => fold_left (fun m j => set_row m (Z.to_nat (- Nmin_v + i)) (Z.to_nat (- Nmin + j) * ns) (left (i * 2 + 1) (j * 2 + 1))) (range Nmin Nmax) m) (range Nmin_v Nmax_v) unset.
  Definition values_right (Nmin Nmax Nmin_vp Nmax_vp : Z) : matrix :=
    fold_left (fun m i => fold_left (fun m j => set_col m (Z.to_nat (- Nmin + i) * ns) (Z.to_nat (- Nmin_vp + j)) (right (i * 2 + 1) (j * 2 + 1))) (range Nmin_vp Nmax_vp) m) (range Nmin Nmax) unset.
  (** matrix product with the diagonal matrix in between *)
  Definition matsubarasum_vectorized (Nmin_v Nmax_v Nmin Nmax Nmin_vp Nmax_vp : Z) (i j : nat) : option R :=
    let L := values_left Nmin_v Nmax_v Nmin Nmax in let P := Pi_values Nmin Nmax in let Rt := values_right Nmin Nmax Nmin_vp Nmax_vp in
    terms <- osequence (map (fun k => l <- L i k ;; p <- P k 0%nat ;; r <- Rt k j ;; Some (l * p * r)) (seq 0 (Z.to_nat (Nmax - Nmin + 1) * ns))) ;;
    Some (fold_right Rplus 0 terms).
End Vectorised.
