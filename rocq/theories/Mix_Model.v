(** Anderson mixing of states.
    Model of utilities/anderson_acceleration.hpp and SelfEnergy::get_selfenergy_vector_incl_hartree. Matrices of Eigen are
    lists of columns (the history) or lists of rows (the small matrix of the least-squares problem). The library routine that
    inverts a matrix is a parameter: [None] when the matrix has no inverse, in which case Eigen returns values that are not
    numbers (or are meaningless). Printing of the coefficients is left out. *)
From Coq Require Import Reals.
From Verif Require Import Prelude Idx_Model Arr_Model Interp_Model State_Model.
Open Scope R_scope.

(** selfenergy.hpp:61-66: head(nFER) asserts that there are that many entries *)
Definition selfenergy_vector (nFER : nat) (s : selfen) : option (list comp) :=
  let v := m_elements (b_data (Sigma s)) in
  if (nFER <=? length v)%nat then Some (map (fun x => cadd x (asymp s)) (firstn nFER v) ++ skipn nFER v) else None.

(** anderson_acceleration.hpp:84-90: one column of the error matrix, which has [size] rows *)
Definition error_column (nFER : nat) (size : nat) (rhs step : state) : option (list comp) :=
  u <- selfenergy_vector nFER (selfenergy rhs) ;; v <- selfenergy_vector nFER (selfenergy step) ;;
  if ((length u =? length v) && (length u =? size))%nat then Some (zip2 csub u v) else None.
Fixpoint error_matrix (nFER : nat) (size : nat) (rhs steps : list state) : option (list (list comp)) :=
  match rhs, steps with
  | [], _ => Some []
  | r :: rhs', t :: steps' => c <- error_column nFER size r t ;; l <- error_matrix nFER size rhs' steps' ;; Some (c :: l)
  | _, [] => None
  end.

(** 14-19 *)
Definition colwise_difference (m : list (list comp)) : list (list comp) := zip2 (zip2 csub) (tl m) m.

(** 36-42: real parts of A^dagger A and A^dagger y *)
Definition conj (x : comp) : comp := (fst x, - snd x).
Definition sumR (l : list R) : R := fold_right Rplus 0 l.
Definition inner (u v : list comp) : R := sumR (zip2 (fun x y => fst (cmul (conj x) y)) u v).
Definition mat_vec (m : list (list R)) (x : list R) : list R := map (fun row => sumR (zip2 Rmult row x)) m.
Definition normal_matrix (A : list (list comp)) : list (list R) := map (fun a => map (inner a) A) A.
Definition normal_rhs (A : list (list comp)) (y : list comp) : list R := map (fun a => inner a y) A.
Definition ordinary_least_squares (inverse : list (list R) -> option (list (list R))) (y : list comp) (A : list (list comp)) : option (list R) :=
  i <- inverse (normal_matrix A) ;; Some (mat_vec i (normal_rhs A y)).

(** 94-105 *)
Definition mixing_coefficient (m : nat) (gamma : list R) (i : nat) : option R :=
  if (i =? m - 1)%nat then nth_error gamma (m - 2)
  else if (i =? 0)%nat then g <- nth_error gamma 0 ;; Some (1 - g)
  else g <- nth_error gamma (i - 1) ;; h <- nth_error gamma i ;; Some (g - h).
Definition mixing_coefficients (m : nat) (gamma : list R) : option (list R) := osequence (map (mixing_coefficient m gamma) (seq 0 m)).

(** 116-125 *)
Definition damped (b : build) (zeta : R) (rhs step : state) : option state := st_add b (st_scale b rhs zeta) (st_scale b step (1 - zeta)).
Fixpoint accumulate (b : build) (zeta : R) (result : state) (alpha : list R) (rhs steps : list state) : option state :=
  match alpha, rhs, steps with
  | a :: alpha', r :: rhs', t :: steps' => d <- damped b zeta r t ;; s <- st_add b result (st_scale b d a) ;; accumulate b zeta s alpha' rhs' steps'
  | _, [], _ => Some result
  | _, _, _ => None
  end.

(** 56-126: exception, undefined (failed assertion, values that are not numbers), or coefficients and mixed state *)
Inductive mixing := Rejected | Undefined | Mixed (alpha : list R) (s : state).
Definition finish (b : build) (zeta : R) (rhs steps : list state) (alpha : list R) : mixing :=
  match alpha, rhs, steps with
  | a :: alpha', r :: rhs', t :: steps' =>
      match d <- damped b zeta r t ;; accumulate b zeta (st_scale b d a) alpha' rhs' steps' with Some s => Mixed alpha s | None => Undefined end
  | _, _, _ => Undefined
  end.
Definition coefficients (inverse : list (list R) -> option (list (list R))) (nFER : nat) (rhs steps : list state) : option (list R) :=
  match rhs with
  | [] => None
  | [_] => Some [1]
  | r :: _ => size <- getFlatSize (m_length (b_data (Sigma (selfenergy r)))) ;;
              e <- error_matrix nFER (Z.to_nat size) rhs steps ;; e0 <- nth_error e 0 ;;
              g <- ordinary_least_squares inverse (map (fun x => cscale x (-1)) e0) (colwise_difference e) ;;
              mixing_coefficients (length rhs) g
  end.
Definition anderson_update (b : build) (inverse : list (list R) -> option (list (list R))) (nFER : nat) (zeta : R) (rhs steps : list state) : mixing :=
  match rhs with
  | [] => Rejected
  | _ => match coefficients inverse nFER rhs steps with Some alpha => finish b zeta rhs steps alpha | None => Undefined end
  end.
