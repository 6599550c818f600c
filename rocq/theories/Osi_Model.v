(** The older quadrature routines of integrator/old_integrators.hpp (332 lines): trapezoidal sum on
    the global bosonic grid, Simpson's rule with a given number of points, its two wrappers that
    split the domain at sharp features, and the adaptive Simpson rule.
    doubles are exact rationals, [comp] values are complex rationals ([Cplx]); the integrand is a
    function from frequencies to complex values. *)
From Coq Require Import QArith.
From Verif Require Import Prelude Cplx.
Open Scope Z_scope.

(** The template argument Q of the routines. *)
Inductive qtype := Qdouble | Qcomp.

Section Int.
Variable f : Q -> cplx.

(** dotproduct, 18-25: [Q res;] without initialiser, then [res += x[i] * y[i]] for i < x.size().
    A std::complex starts at zero; a double has an indeterminate value, reading it is undefined
    behaviour ([None]; also for an empty vector, since [return res] reads it).
    y[i] beyond the end of y is undefined behaviour. *)
Definition res_start (t : qtype) : option cplx :=
  match t with Qcomp => Some C0 | Qdouble => None end.
Fixpoint dot_loop (res : cplx) (x : list cplx) (y : list Q) : option cplx :=
  match x, y with
  | [], _ => Some res
  | _ :: _, [] => None
  | u :: x', w :: y' => dot_loop (Cadd res (Cscale w u)) x' y'
  end.
Definition dotproduct (t : qtype) (x : list cplx) (y : list Q) : option cplx :=
  res <- res_start t ;; dot_loop res x y.

(** integrator_riemann, 30-50.  [bfreqs] is the global vector of bosonic frequencies; reading it
    beyond its end is undefined behaviour, as is N < 2 (spacings[0] or bfreqs[N-2] out of range).
    The loop over the interior points is a traversal of consecutive triples. *)
Fixpoint riemann_inner (w0 w1 : Q) (rest : list Q) : list (Q * Q) :=
  match rest with
  | [] => []
  | w2 :: r => (w1, (w2 - w0)%Q) :: riemann_inner w1 w2 r
  end.
Definition integrator_riemann (t : qtype) (bfreqs : list Q) (N : Z) : option cplx :=
  if (N <? 2) || (Z.of_nat (length bfreqs) <? N) then None else
  match firstn (Z.to_nat N) bfreqs with
  | b0 :: b1 :: rest =>
      let inner := riemann_inner b0 b1 rest in
      let bl := last (b1 :: rest) 0%Q in
      let bp := last (removelast (b0 :: b1 :: rest)) 0%Q in
      let pts := b0 :: map fst inner ++ [bl] in
      let spac := (b1 - b0)%Q :: map snd inner ++ [(bl - bp)%Q] in
      d <- dotproduct t (map f pts) spac ;;
      Some (Cscale (1 # 2) d)
  | _ => None
  end.

(** integrator_simpson(integrand, a, b, N), 61-77.  simpson[i] = 2 + 2*(i%2), then the first and
    the last entry are set to one. *)
Definition simpson_weight (N i : Z) : Q :=
  if (i =? N - 1) then 1%Q else if (i =? 0) then 1%Q else inject_Z (2 + 2 * (i mod 2)).
Definition zrange (n : Z) : list Z := map Z.of_nat (seq 0 (Z.to_nat n)).
Definition integrator_simpson (t : qtype) (a b : Q) (N0 : Z) : option cplx :=
  let N := if N0 <? 3 then 3 else N0 in
  let dx := ((b - a) / inject_Z (N - 1))%Q in
  d <- dotproduct t (map (fun i => f (a + inject_Z i * dx)%Q) (zrange N))
                    (map (simpson_weight N) (zrange N)) ;;
  Some (Cscale (dx / 3) d).

(** (int)(double): truncation towards zero; a NaN, an infinity (division by b - a = 0) or a value
    outside the range of int is undefined behaviour. *)
Definition qtrunc (x : Q) : Z := Z.quot (Qnum x) (Zpos (Qden x)).
Definition to_int (x : Q) : option Z :=
  let z := qtrunc x in
  if (- 2 ^ 31 <=? z) && (z <? 2 ^ 31) then Some z else None.
Definition share (N : Z) (len a b : Q) : option Z :=
  if Qeq_bool (b - a) 0 then None else to_int (inject_Z N * len / (b - a))%Q.
(** [if (!(n % 2)) n += 1], C remainder *)
Definition make_odd (n : Z) : Z := if Z.rem n 2 =? 0 then n + 1 else n.

Definition oadd (o1 o2 : option cplx) : option cplx :=
  u <- o1 ;; v <- o2 ;; Some (Cadd u v).

(** integrator_simpson(integrand, a, b, w, N), 86-104; glb_Gamma = 1, Delta = 2 *)
Definition integrator_simpson_w (t : qtype) (a b w : Q) (N : Z) : option cplx :=
  let Delta := 2%Q in
  let Nw := make_odd (Z.quot N 5) in
  na <- share N (w - a) a b ;;
  nb <- share N (b - w) a b ;;
  let Na := make_odd na in
  let Nb := make_odd nb in
  oadd (oadd (oadd (Some C0) (integrator_simpson t a (w - Delta) Na))
             (integrator_simpson t (w - Delta) (w + Delta) Nw))
       (integrator_simpson t (w + Delta) b Nb).

Definition qlt (x y : Q) : bool := negb (Qle_bool y x).

(** integrator_simpson(integrand, a, b, w1_in, w2_in, N), 113-165; glb_T = 1, Delta = 5 *)
Definition integrator_simpson_ww (t : qtype) (a b w1_in w2_in : Q) (N : Z) : option cplx :=
  let Delta := 5%Q in
  let Nw := make_odd (Z.quot N 10) in
  let w1 := if qlt w1_in w2_in then w1_in else w2_in in
  let w2 := if qlt w1_in w2_in then w2_in else w1_in in
  if qlt Delta (b - w2) then
    na <- share N (w1 - a) a b ;;
    nb <- share N (b - w2) a b ;;
    let outer := oadd (oadd (Some C0) (integrator_simpson t a (w1 - Delta) (make_odd na)))
                      (integrator_simpson t (w2 + Delta) b (make_odd nb)) in
    if qlt (10 * Delta) (w2 - w1) then
      nc <- share N (w2 - w1) a b ;;
      oadd (oadd (oadd outer (integrator_simpson t (w1 - Delta) (w1 + Delta) Nw))
                 (integrator_simpson t (w1 + Delta) (w2 - Delta) (make_odd nc)))
           (integrator_simpson t (w2 - Delta) (w2 + Delta) Nw)
    else
      nc <- to_int (inject_Z Nw * (w2 - w1 + 2 * Delta) / (2 * Delta))%Q ;;
      oadd outer (integrator_simpson t (w1 - Delta) (w2 + Delta) (make_odd nc))
  else
    oadd (oadd (oadd (Some C0) (integrator_simpson t a (w1 + Delta) Nw))
               (integrator_simpson t (w1 + Delta) (w2 - Delta) N))
         (integrator_simpson t (w2 - Delta) b Nw).

(** ** adaptive_simpson_integrator, 194-321 *)

(** simpson_rule_3, 169-172 *)
Definition simpson_rule_3 (v0 v1 v2 : cplx) (dx : Q) : cplx :=
  Cscale (dx / 3) (Cadd (Cadd v0 (Cscale 4 v1)) v2).

(** std::abs(num / den) < acc.  For den = 0 the quotient is NaN or infinite and the comparison is
    false.  Squares are compared (acc > 0). *)
Definition abs_quot_lt (num den : cplx) (acc : Q) : bool :=
  if Qeq_bool (Cnorm2 den) 0 then false
  else qlt (Cnorm2 num) (acc * acc * Cnorm2 den)%Q.

Definition accuracy : Q := 1 # 1000.
Definition total_accuracy : Q := 1 # 10000.
Definition tiny : cplx := Cofq (1 # 10000000000000000).

Record lists := mkLists { l_points : list Q; l_values : list cplx; l_result : list cplx; l_conv : list bool }.
Definition push4 (l : lists) (ps : list Q) (vs rs : list cplx) (cs : list bool) : lists :=
  mkLists (ps ++ l_points l) (vs ++ l_values l) (rs ++ l_result l) (cs ++ l_conv l).

(** The loop over the sub-intervals, 233-286.  Sub-interval number [interval] owns the points with
    the numbers 2*interval, 2*interval+1, 2*interval+2; the loop is written as a traversal that
    carries the point and the value with the number 2*interval ([p0], [v0]; the value is also the
    last one pushed to values_next, val[-3] in 260).  The vectors ..._next are returned without
    their first entry.  The number of evaluations of the integrand is returned as well.
    Vectors whose lengths do not fit would be read out of range ([None]). *)
Fixpoint split_loop (it : Z) (dx : Q) (p0 : Q) (v0 : cplx)
    (points : list Q) (values result : list cplx) (converged : list bool)
    {struct result} : option (lists * Z) :=
  match result, points, values, converged with
  | [], _, _, _ => Some (mkLists [] [] [] [], 0)
  | r :: result', p1 :: p2 :: points', v1 :: v2 :: values', c :: converged' =>
      x <- split_loop it dx p2 v2 points' values' result' converged' ;;
      let '(next, evals) := x in
      if c && (3 <? it) then
        Some (push4 next [p1; p2] [v1; v2] [r] [true], evals)
      else
        let pa := (p0 + dx)%Q in
        let va := f pa in
        let result1 := simpson_rule_3 v0 va v1 dx in
        let pb := (p1 + dx)%Q in
        let vb := f pb in
        let result2 := simpson_rule_3 v1 vb v2 dx in
        let both := Cadd result1 result2 in
        let ok := abs_quot_lt (Csub both r) (Cadd both tiny) accuracy in
        Some (push4 next [pa; p1; pb; p2] [va; v1; vb; v2] [result1; result2] [ok; ok], evals + 2)
  | _, _, _, _ => None
  end.

(** std::accumulate, 290 *)
Definition accumulate (l : list cplx) : cplx := fold_left Cadd l C0.

(** why the infinite loop ended, 295-316 *)
Inductive stop := Total | Intervals | MaxPoints.
Record outcome := mkOutcome {
  o_res : cplx; o_lists : lists; o_iterations : Z; o_evals : Z; o_stop : stop }.

(** The infinite loop, 222-317, with explicit fuel; [Some None] = out of fuel. *)
Fixpoint adaptive_loop (fuel : nat) (Nmax it : Z) (dx : Q) (res : cplx) (st : lists) (evals : Z)
  : option (option outcome) :=
  match fuel with
  | O => Some None
  | S fuel' =>
      let dx := (dx / 2)%Q in
      match l_points st, l_values st with
      | p0 :: ps, v0 :: vs =>
          x <- split_loop it dx p0 v0 ps vs (l_result st) (l_conv st) ;;
          let '(rest, ev) := x in
          let next := push4 rest [p0] [v0] [] [] in
          let evals := evals + ev in
          let res_next := accumulate (l_result next) in
          if abs_quot_lt (Csub res res_next) res total_accuracy then
            Some (Some (mkOutcome res_next next (it + 1) evals Total))
          else if forallb (fun c => c) (l_conv next) then
            Some (Some (mkOutcome res_next next (it + 1) evals Intervals))
          else if Nmax <? Z.of_nat (length (l_points next)) then
            Some (Some (mkOutcome res_next next (it + 1) evals MaxPoints))
          else adaptive_loop fuel' Nmax (it + 1) dx res_next next evals
      | _, _ => None
      end
  end.

Definition adaptive_simpson (fuel : nat) (a b : Q) (Nmax : Z) : option (option outcome) :=
  let dx := ((b - a) / 2)%Q in
  let points := [(a + 0 * dx)%Q; (a + 1 * dx)%Q; (a + 2 * dx)%Q] in
  let values := map f points in
  let r := simpson_rule_3 (f (a + 0 * dx)%Q) (f (a + 1 * dx)%Q) (f (a + 2 * dx)%Q) dx in
  adaptive_loop fuel Nmax 0 dx r (mkLists points values [r] [false]) 3.

End Int.
