(** Propagators.
    Model of correlation_functions/two_point/propagator.hpp:228-823 and propagator.c++:1-36. Doubles are real numbers without
    rounding; Matsubara propagators with particle-hole symmetry, doubles in the code, are complex numbers without imaginary part.
    The self-energies enter by their interpolated values (SelfEnergy::valsmooth, modelled in Interp_Model); the internal index
    is left out. [None]: infinite value, NaN or failed assertion. *)
From Coq Require Import Reals.
From Verif Require Import Prelude.
Open Scope R_scope.

(** std::complex<double> *)
Definition comp : Type := (R * R)%type.
Definition rc (x : R) : comp := (x, 0).
Definition ci : comp := (0, 1).
Definition cadd (x y : comp) : comp := (fst x + fst y, snd x + snd y).
Definition copp (x : comp) : comp := (- fst x, - snd x).
Definition csub (x y : comp) : comp := (fst x - fst y, snd x - snd y).
Definition cmul (x y : comp) : comp := (fst x * fst y - snd x * snd y, fst x * snd y + snd x * fst y).
Definition norm (x : comp) : R := fst x * fst x + snd x * snd x.
Definition cinv (x : comp) : comp := (fst x / norm x, - snd x / norm x).
Definition conj (x : comp) : comp := (fst x, - snd x).
Definition cquot (x y : comp) : option comp := if Req_EM_T (norm y) 0 then None else Some (cmul x (cinv y)).
Declare Scope c_scope.
Delimit Scope c_scope with C.
Infix "+" := cadd : c_scope.
Infix "-" := csub : c_scope.
Infix "*" := cmul : c_scope.
Notation "- x" := (copp x) : c_scope.

(** compile-time parameters and run-time data of a propagator *)
Record cfg := { keldysh : bool; contour : bool; zero_t : bool; phs : bool; reg : Z; equilibrium : bool; fdt_katanin : bool; mu : R; bias : R }.
Record propagator := { Lambda : R; epsilon : R; Gamma : R; Temp : R; sigma : Z -> R -> comp; dsigma : Z -> R -> comp; asymp : comp }.

(** math_utils.hpp:24 and math_utils.c++:22-24 *)
Definition sign (x : R) : R := (if Rlt_dec 0 x then 1 else 0) - (if Rlt_dec x 0 then 1 else 0).
Definition sgn (x : R) : R := (if Rle_dec 0 x then 1 else 0) - (if Rle_dec x 0 then 1 else 0).

Section Conf.
  Variable c : cfg.
  (** propagator.c++:3-36 *)
  Definition Fermi_distr (v m T : R) : R :=
    if zero_t c then (if Rlt_dec (v - m) 0 then 1 else 0) else / 2 * (1 - tanh ((v - m) / (2 * T))).
  Definition Fermi_fac (v m T : R) : R := if zero_t c then sgn (v - m) else tanh ((v - m) / (2 * T)).
  Definition Eff_distr (v T : R) : R :=
    if equilibrium c then Fermi_distr v (mu c) T
    else / 2 * (Fermi_distr v (mu c + bias c / 2) T + Fermi_distr v (mu c - bias c / 2) T).
  Definition Eff_fac (v T : R) : R :=
    if equilibrium c then Fermi_fac v (mu c) T
    else 1 - (Fermi_distr v (mu c + bias c / 2) T + Fermi_distr v (mu c - bias c / 2) T).
  Definition Fermi_distribution (nu T : R) : R :=
    if zero_t c then (if Rlt_dec 0 nu then 0 else if Req_EM_T nu 0 then 1 / 2 else 1) else 1 / (exp (nu / T) + 1).

  Section Prop_.
    Variable p : propagator.
    Variable v : R.
    Let S0 : comp := sigma p 0 v.
    Let L := Lambda p.
    (** 625-660 *)
    Definition scaled : R := v * (if negb (keldysh c) && negb (zero_t c) then PI * Temp p else 1).
    Definition G0M_inv : comp :=
      if phs c then rc (scaled + Gamma p * (1 / 2) * sign v)
      else (rc (scaled + Gamma p * (1 / 2) * sign v) * ci - rc (epsilon p))%C.
    Definition G0R_inv : comp := (rc (v - epsilon p) + ci * rc (Gamma p * (1 / 2)))%C.
    (** 665-823 *)
    Definition GR_REG2 : option comp := cquot (rc 1) (G0R_inv + ci * rc (L * (1 / 2)) - S0)%C.
    Definition GR_REG3 : option comp := r <- cquot (rc v) (rc v + ci * rc L)%C ;; cquot r (G0R_inv - r * S0)%C.
    Definition GR_REG4 : option comp := cquot (rc L) (G0R_inv - asymp p - rc L * (S0 - asymp p))%C.
    Definition GR_REG5 : option comp := cquot (rc 1) (G0R_inv - S0)%C.
    (** 228-240 *)
    Definition GR : option comp :=
      if (reg c =? 2)%Z then GR_REG2 else if (reg c =? 3)%Z then GR_REG3 else if (reg c =? 4)%Z then GR_REG4 else if (reg c =? 5)%Z then GR_REG5 else None.
    Definition SR_REG2 : option comp := G <- GR ;; Some (rc (- (1 / 2)) * ci * G * G)%C.
    Definition SR_REG3 : option comp :=
      if Rlt_dec (Rabs v) (/ 10 ^ 18) then Some (rc 0)
      else G <- GR ;; q <- cquot (- ci)%C (rc v) ;; Some (q * G * G0R_inv * G)%C.
    Definition SR_REG4 : option comp :=
      G <- cquot (rc 1) (G0R_inv - asymp p - rc L * (S0 - asymp p))%C ;; Some ((G0R_inv - asymp p) * G * G)%C.
    Definition SR_REG5 : option comp := Some (rc 0).
    Definition SR : option comp :=
      if (reg c =? 2)%Z then SR_REG2 else if (reg c =? 3)%Z then SR_REG3 else if (reg c =? 4)%Z then SR_REG4 else if (reg c =? 5)%Z then SR_REG5 else None.
    (** 242-270 *)
    Definition GK : option comp :=
      G <- GR ;;
      if equilibrium c then
        if (reg c =? 5)%Z then Some ((sigma p 1 v - ci * rc (Gamma p * Eff_fac v L)) * rc (norm G))%C
        else Some (ci * rc (Eff_fac v (Temp p) * 2 * snd G))%C
      else Some (rc (norm G) * (sigma p 1 v - ci * rc ((Gamma p + L) * Eff_fac v (Temp p))))%C.
    (** 285-318 *)
    Definition root_denominator : R := L * cosh (v / (2 * L)).
    Definition SK : option comp :=
      if equilibrium c then
        if (reg c =? 5)%Z then G <- GR ;; cquot (ci * rc (1 / 2 * Gamma p * v * norm G))%C (rc (root_denominator * root_denominator))
        else s <- SR ;; Some (ci * rc (Eff_fac v (Temp p) * 2 * snd s))%C
      else
        G <- GR ;;
        Some (sigma p 1 v * rc (norm G * snd G) - ci * rc (norm G * Eff_fac v (Temp p) * (1 + (Gamma p + L) * snd G)))%C.
    (** 806-811; 320-337 *)
    Definition diff_Sigma_K_REG5 : option comp :=
      t1 <- cquot (- (ci * rc (v * snd S0)))%C (rc (root_denominator * root_denominator)) ;;
      Some (t1 + rc 2 * ci * rc (tanh (v / (2 * L)) * snd (dsigma p 0 v)))%C.
    Definition Katanin_R : option comp := G <- GR ;; Some (G * dsigma p 0 v * G)%C.
    Definition Katanin_K : option comp :=
      dK <- (if fdt_katanin c then diff_Sigma_K_REG5 else Some (dsigma p 1 v)) ;;
      G <- GR ;; K <- GK ;;
      Some (G * dsigma p 0 v * K + G * dK * conj G + K * conj (dsigma p 0 v) * conj G)%C.
    (** Matsubara 676-692, 728-738, 770-789 *)
    Definition GM_REG2 : option comp :=
      if phs c then cquot (rc 1) (G0M_inv + rc (L * (1 / 2) * sign v) - S0)%C
      else cquot (rc 1) (G0M_inv + ci * rc (L * (1 / 2) * sign v) - S0)%C.
    Definition GM_REG3 : option comp :=
      r <- cquot (rc (v * v)) (rc (v * v + L * L)) ;; q <- cquot G0M_inv r ;; cquot (rc 1) (q - S0)%C.
    Definition GM_REG4 : option comp := cquot (rc L) (G0M_inv - rc L * S0)%C.
    (** 340-353 *)
    Definition GM : option comp :=
      if (reg c =? 2)%Z then GM_REG2 else if (reg c =? 3)%Z then GM_REG3 else if (reg c =? 4)%Z then GM_REG4 else None.
    Definition SM_REG2 : option comp :=
      G <- GM ;; Some (if phs c then rc (- (1 / 2)) * G * G * rc (sign v) else rc (- (1 / 2)) * ci * G * G * rc (sign v))%C.
    Definition SM_REG3 : option comp :=
      if Req_EM_T v 0 then None else G <- GM ;; q <- cquot (rc (-2 * L)) (rc (v * v)) ;; Some (q * G * G0M_inv * G)%C.
    Definition SM_REG4 : option comp :=
      if Req_EM_T v 0 then None else G <- cquot (rc 1) (G0M_inv - rc L * S0)%C ;; Some (G0M_inv * G * G)%C.
    Definition SM : option comp :=
      if (reg c =? 2)%Z then SM_REG2 else if (reg c =? 3)%Z then SM_REG3 else if (reg c =? 4)%Z then SM_REG4 else None.
    Definition Katanin_M : option comp := G <- GM ;; Some (G * dsigma p 0 v * G)%C.
  End Prop_.

  (** 355-505 and 508-611; g: propagator, s: single-scale, k: with Katanin extension, e: Katanin extension only *)
  Inductive ptype := Tg | Ts | Tk | Te.
  Definition plus (x y : option comp) : option comp := a <- x ;; b <- y ;; Some (a + b)%C.
  Definition retarded (t : ptype) (p : propagator) (v : R) : option comp :=
    match t with Tg => GR p v | Ts => SR p v | Tk => plus (SR p v) (Katanin_R p v) | Te => Katanin_R p v end.
  Definition keldysh_comp (t : ptype) (p : propagator) (v : R) : option comp :=
    match t with Tg => GK p v | Ts => SK p v | Tk => plus (SK p v) (Katanin_K p v) | Te => Katanin_K p v end.
  Definition matsubara (t : ptype) (p : propagator) (v : R) : option comp :=
    match t with Tg => GM p v | Ts => SM p v | Tk => plus (SM p v) (Katanin_M p v) | Te => Katanin_M p v end.
  Definition rotated (r k : comp) (iK : Z) : option comp :=
    let a := conj r in
    match iK with
    | 0%Z => Some (rc (1 / 2) * (a + r + k))%C
    | 1%Z => Some (rc (1 / 2) * (a - r + k))%C
    | 2%Z => Some (rc (1 / 2) * (- a + r + k))%C
    | 3%Z => Some (rc (1 / 2) * (- a - r + k))%C
    | _ => None
    end.
  Definition valsmooth (t : ptype) (p : propagator) (iK : Z) (v : R) : option comp :=
    if keldysh c then
      if contour c then r <- retarded t p v ;; k <- keldysh_comp t p v ;; rotated r k iK
      else match iK with 0%Z => retarded t p v | 1%Z => keldysh_comp t p v | _ => None end
    else matsubara t p v.
  (** the components 00, 01, 10, 11 *)
  Definition valsmooth_vectorized (t : ptype) (p : propagator) (v : R) : option (comp * comp * comp * comp) :=
    if keldysh c then
      r <- retarded t p v ;; k <- keldysh_comp t p v ;;
      if contour c then a <- rotated r k 0 ;; b <- rotated r k 1 ;; x <- rotated r k 2 ;; d <- rotated r k 3 ;; Some (a, b, x, d)
      else if match t with Tg | Ts => negb (equilibrium c) | _ => false end then None
      else Some (rc 0, conj r, r, k)
    else None.
End Conf.

(** loop/integrandSE.hpp:99-102, a row of four components times the matrix *)
Definition to_Keldysh (x : comp * comp * comp * comp) : comp * comp * comp * comp :=
  let '(a, b, x, d) := x in let h := rc (1 / 2) in
  (h * a - h * b - h * x + h * d, h * a + h * b - h * x - h * d, h * a - h * b + h * x - h * d, h * a + h * b + h * x + h * d)%C.
