(** States: self-energy and vertex with their arithmetic.
    Model of correlation_functions/state.hpp, four_point/vertex.hpp, four_point/r_vertex.hpp,
    two_point/selfenergy.hpp and n_point/data_buffer.hpp (arithmetic only). Data is complex (state_datatype = comp in the
    Keldysh formalism); doubles are real numbers. The buffers K?_symmetry_expanded and K3_SBE, which the arithmetic does
    not touch, and the interpolation flags are left out. [None]: exception or failed assertion. *)
From Coq Require Import Reals.
From Verif Require Import Prelude Arr_Model Interp_Model.
Open Scope R_scope.

(** std::complex<double> without rounding *)
Definition comp : Type := (R * R)%type.
Definition cadd (x y : comp) : comp := (fst x + fst y, snd x + snd y).
Definition csub (x y : comp) : comp := (fst x - fst y, snd x - snd y).
Definition cmul (x y : comp) : comp := (fst x * fst y - snd x * snd y, fst x * snd y + snd x * fst y).
Definition cscale (x : comp) (c : R) : comp := (fst x * c, snd x * c).
Definition cshift (x : comp) (c : R) : comp := (fst x + c, snd x).
Definition cdiv (x y : comp) : comp :=
  let d := fst y * fst y + snd y * snd y in
  ((fst x * fst y + snd x * snd y) / d, (snd x * fst y - fst x * snd y) / d).
(** std::abs, and the cast of its value back to a complex number *)
Definition cabs (x : comp) : R := sqrt (fst x * fst x + snd x * snd x).
Definition cabs_c (x : comp) : comp := (cabs x, 0).

(** compile-time switches *)
Record build := { ndebug : bool; max_diag_class : Z; debug_symmetries : bool }.

(** multiarray.hpp:395-425 compound assignment with another array; 476-503 with a number *)
Fixpoint same_ints (x y : list Z) : bool :=
  match x, y with [], [] => true | a :: x', b :: y' => (a =? b)%Z && same_ints x' y' | _, _ => false end.
Fixpoint zip2 {A B C} (f : A -> B -> C) (x : list A) (y : list B) : list C :=
  match x, y with a :: x', b :: y' => f a b :: zip2 f x' y' | _, _ => [] end.
Definition amap {A B} (f : A -> B) (a : marray A) : marray B := Marray (m_length a) (m_cumul a) (map f (m_elements a)).
Definition azip (f : comp -> comp -> comp) (a b : marray comp) : option (marray comp) :=
  if same_ints (m_length a) (m_length b) && (length (m_elements a) =? length (m_elements b))%nat
  then Some (Marray (m_length a) (m_cumul a) (zip2 f (m_elements a) (m_elements b))) else None.
(** data_structures.hpp:383-390 *)
Definition vec_max_norm (v : list R) : R := fold_left (fun out x => Rmax out (Rabs x)) v 0.

(** data_buffer.hpp: a buffer with its frequency grids (primary, secondary, tertiary); per grid all frequencies and what
    the interpolation uses *)
Record grid := { g_freqs : list R; g_axis : axis }.
Record buffer := Buffer { b_grids : list grid; b_data : marray comp }.
(** 650-662 check_if_frequencyGrid_identical for one of the grids: difference of two vectors, then the maximum norm *)
Definition grid_check (u v : grid) : option unit :=
  if (length (g_freqs u) =? length (g_freqs v))%nat then
    if Rlt_dec (/ 10 ^ 10) (vec_max_norm (zip2 Rminus (g_freqs u) (g_freqs v))) then None else Some tt
  else None.
Definition check_grids (m : build) (b c : buffer) : option unit :=
  if ndebug m then Some tt else
  match b_grids b, b_grids c with
  | [u], [v] => grid_check u v
  | u1 :: u2 :: _, v1 :: v2 :: _ => _ <- grid_check u1 v1 ;; grid_check u2 v2
  | _, _ => None
  end.
(** 664-667 *)
Definition buf_zip (m : build) (f : comp -> comp -> comp) (b c : buffer) : option buffer :=
  _ <- check_grids m b c ;; d <- azip f (b_data b) (b_data c) ;; Some (Buffer (b_grids b) d).
(** 690-693 *)
Definition buf_map (f : comp -> comp) (b : buffer) : buffer := Buffer (b_grids b) (amap f (b_data b)).

(** r_vertex.hpp:50-66 *)
Record rvert := Rvert { K1 : buffer; K2 : buffer; K2b : buffer; K3 : buffer }.
(** r_vertex.hpp:74-84 apply_unary_op_to_all_vertexBuffers with [f] given as its effect on the buffer passed to it *)
Definition rv_map (m : build) (f : buffer -> buffer) (r : rvert) : rvert :=
  let d := max_diag_class m in
  Rvert (if (0 <? d)%Z then f (K1 r) else K1 r) (if (1 <? d)%Z then f (K2 r) else K2 r)
        (if debug_symmetries m && (1 <? d)%Z then f (K2b r) else K2b r) (if (2 <? d)%Z then f (K3 r) else K3 r).
(** r_vertex.hpp:112-123 apply_binary_op_to_all_vertexBuffers *)
Definition rv_zip (m : build) (f : comp -> comp -> comp) (r s : rvert) : option rvert :=
  let d := max_diag_class m in
  k1 <- (if (0 <? d)%Z then buf_zip m f (K1 r) (K1 s) else Some (K1 r)) ;;
  k2 <- (if (1 <? d)%Z then buf_zip m f (K2 r) (K2 s) else Some (K2 r)) ;;
  k2b <- (if debug_symmetries m && (1 <? d)%Z then buf_zip m f (K2b r) (K2b s) else Some (K2b r)) ;;
  k3 <- (if (2 <? d)%Z then buf_zip m f (K3 r) (K3 s) else Some (K3 r)) ;;
  Some (Rvert k1 k2 k2b k3).

(** vertex.hpp:115-131 *)
Record fullvert := Fullvert { irred : marray comp; avertex : rvert; pvertex : rvert; tvertex : rvert }.
(** vertex.hpp:359-365, 403-409 *)
Definition fv_zip (m : build) (f : comp -> comp -> comp) (v w : fullvert) : option fullvert :=
  i <- azip f (irred v) (irred w) ;; a <- rv_zip m f (avertex v) (avertex w) ;;
  p <- rv_zip m f (pvertex v) (pvertex w) ;; t <- rv_zip m f (tvertex v) (tvertex w) ;; Some (Fullvert i a p t).
(** vertex.hpp:370-376, 392-398 *)
Definition fv_map (m : build) (f : comp -> comp) (v : fullvert) : fullvert :=
  Fullvert (amap f (irred v)) (rv_map m (buf_map f) (avertex v)) (rv_map m (buf_map f) (pvertex v)) (rv_map m (buf_map f) (tvertex v)).
(** vertex.hpp:416-422 with 96-99: the division of the irreducible part is commented out *)
Definition fv_div (m : build) (v w : fullvert) : option fullvert :=
  a <- rv_zip m cdiv (avertex v) (avertex w) ;; p <- rv_zip m cdiv (pvertex v) (pvertex w) ;;
  t <- rv_zip m cdiv (tvertex v) (tvertex w) ;; Some (Fullvert (irred v) a p t).

(** vertex.hpp:455-464 GeneralVertex: the second half exists for non-symmetric vertices only *)
Record genvertex := Genvertex { half1 : fullvert; half2 : option fullvert }.
Definition gv_zip_with (m : build) (f : build -> fullvert -> fullvert -> option fullvert) (v w : genvertex) : option genvertex :=
  h <- f m (half1 v) (half1 w) ;;
  match half2 v, half2 w with
  | None, None => Some (Genvertex h None)
  | Some x, Some y => h2 <- f m x y ;; Some (Genvertex h (Some h2))
  | _, _ => None
  end.
(** vertex.hpp:1117-1121, 1153-1157, 1163-1167 *)
Definition gv_add m := gv_zip_with m (fun m => fv_zip m cadd).
Definition gv_sub m := gv_zip_with m (fun m => fv_zip m csub).
Definition gv_div m := gv_zip_with m fv_div.
(** 1126-1130 *)
Definition gv_shift (m : build) (v : genvertex) (c : R) : genvertex :=
  Genvertex (fv_map m (fun x => cshift x c) (half1 v)) (option_map (fv_map m (fun x => cshift x c)) (half2 v)).
(** 1144-1148: the second half is shifted (vertex_half2 += alpha) *)
Definition gv_scale (m : build) (v : genvertex) (c : R) : genvertex :=
  Genvertex (fv_map m (fun x => cscale x c) (half1 v)) (option_map (fv_map m (fun x => cshift x c)) (half2 v)).

(** selfenergy.hpp:82-142 *)
Record selfen := Selfen { Sigma : buffer; asymp : comp }.
Definition se_zip (m : build) (f : comp -> comp -> comp) (s t : selfen) : option selfen :=
  b <- buf_zip m f (Sigma s) (Sigma t) ;; Some (Selfen b (f (asymp s) (asymp t))).
Definition se_shift (s : selfen) (c : R) : selfen := Selfen (buf_map (fun x => cshift x c) (Sigma s)) (asymp s).
Definition se_scale (s : selfen) (c : R) : selfen := Selfen (buf_map (fun x => cscale x c) (Sigma s)) (cscale (asymp s) c).

(** state.hpp:23-30; the configuration is not touched by the arithmetic *)
Record state := State { Lambda : R; vertex : genvertex; selfenergy : selfen }.
(** 76-84, 113-121, 123-131, 85-99, 100-112: the left operand is copied and modified *)
Definition st_zip (m : build) (fv : genvertex -> genvertex -> option genvertex) (f : comp -> comp -> comp) (s t : state) : option state :=
  v <- fv (vertex s) (vertex t) ;; e <- se_zip m f (selfenergy s) (selfenergy t) ;; Some (State (Lambda s) v e).
Definition st_add m := st_zip m (gv_add m) cadd.
Definition st_sub m := st_zip m (gv_sub m) csub.
Definition st_div m := st_zip m (gv_div m) cdiv.
Definition st_shift (m : build) (s : state) (c : R) : state := State (Lambda s) (gv_shift m (vertex s) c) (se_shift (selfenergy s) c).
Definition st_scale (m : build) (s : state) (c : R) : state := State (Lambda s) (gv_scale m (vertex s) c) (se_scale (selfenergy s) c).

(** state.hpp:137-145 abs: the lambda expression takes the buffer by value (auto buffer), so that the
    copy is changed and the buffer of the state keeps its value *)
Definition by_value (f : buffer -> buffer) (b : buffer) : buffer := let _copy := f b in b.
Definition fv_abs (m : build) (v : fullvert) : fullvert :=
  let op := rv_map m (by_value (buf_map cabs_c)) in
  Fullvert (irred v) (op (avertex v)) (op (pvertex v)) (op (tvertex v)).
Definition st_abs (m : build) (s : state) : state :=
  State (Lambda s) (Genvertex (fv_abs m (half1 (vertex s))) (half2 (vertex s)))
        (Selfen (buf_map cabs_c (Sigma (selfenergy s))) (asymp (selfenergy s))).

(** multiarray.hpp:520-532 max_norm: maximal absolute value (undefined for an empty array) *)
Definition arr_max_norm (a : marray comp) : R := fold_left (fun out x => Rmax out (cabs x)) (m_elements a) 0.
Definition later_if_larger (x y : R) : R := if Rlt_dec x y then y else x.
(** vertex.hpp:1821-1876 norm_K1, norm_K2, norm_K3 for p == 0 *)
Definition norm_class0 (k : rvert -> buffer) (v : fullvert) : R :=
  let n r := arr_max_norm (b_data (k r)) in
  later_if_larger (later_if_larger (n (avertex v)) (n (pvertex v))) (n (tvertex v)).
(** the same for p == 2: absolute value of the sum of the squares (not of their absolute values) *)
Definition csq (x : comp) : comp := cmul x x.
Definition csum (l : list comp) : comp := fold_left cadd l (0, 0).
Definition norm_class2 (k : rvert -> buffer) (v : fullvert) : R :=
  let e r := map csq (m_elements (b_data (k r))) in
  sqrt (cabs (csum (zip2 cadd (zip2 cadd (e (avertex v)) (e (pvertex v))) (e (tvertex v))))).
(** 1878-1884 sum_norm; norm_K2 and norm_K3 are 0 unless MAX_DIAG_CLASS is large enough *)
Definition sum_norm_with (m : build) (n : (rvert -> buffer) -> fullvert -> R) (v : fullvert) : R :=
  let d := max_diag_class m in
  (if (0 <=? d)%Z then n K1 v else 0) + (if (2 <=? d)%Z then n K2 v else 0) + (if (3 <=? d)%Z then n K3 v else 0).
(** 1009-1012 GeneralVertex::norm *)
Definition gv_norm (m : build) (v : genvertex) : R :=
  sum_norm_with m norm_class2 (half1 v) + match half2 v with None => 0 | Some h => sum_norm_with m norm_class2 h end.
(** selfenergy.hpp:350-361 norm(0) *)
Definition se_norm (s : selfen) : R := Rmax (arr_max_norm (b_data (Sigma s))) (cabs (asymp s)).
(** state.hpp:203-209 *)
Definition st_norm (m : build) (s : state) : R := Rmax (se_norm (selfenergy s)) (sum_norm_with m norm_class0 (half1 (vertex s))).

(** evaluation of a buffer inside or outside its frequency box: real and imaginary part (the weights are real) *)
Definition buf_eval (pos vecsize : nat) (b : buffer) (ws : list R) (idx : list Z) : option (list comp) :=
  x <- interpolate (map g_axis (b_grids b)) pos vecsize (amap fst (b_data b)) ws idx ;;
  y <- interpolate (map g_axis (b_grids b)) pos vecsize (amap snd (b_data b)) ws idx ;; Some (combine x y).
