(** Bracketing phase of the one-dimensional minimisation.
    Model of utilities/minimizer.hpp:37-97. Doubles are real numbers without rounding, so that the interval neither overflows nor
    underflows; a value of the cost function that is not a number is [None], and no comparison holds for it. The minimisation
    proper (Brent's method of the GSL) is a library routine and not modelled; printing is left out. *)
From Coq Require Import Reals.
From Verif Require Import Prelude.
Open Scope R_scope.

Definition num : Type := option R.
Definition gt (x y : num) : bool := match x, y with Some a, Some b => if Rlt_dec b a then true else false | _, _ => false end.
(** std::abs(x - y) < 1e-10 *)
Definition close (x y : num) : bool := match x, y with Some a, Some b => if Rlt_dec (Rabs (a - b)) (/ 10 ^ 10) then true else false | _, _ => false end.

Record triple := Triple { lo : R; mid : R; hi : R }.
Inductive outcome := Bracketed (t : triple) | GaveUp (t : triple) | Thrown (t : triple) | OutOfFuel (t : triple).
Inductive round := Next (t : triple) | Stop (o : outcome).
(** one pass through the loop, 55-97 *)
Definition pass (cost : R -> num) (t : triple) : round :=
  let a := lo t in let m := mid t in let b := hi t in
  let costa := cost a in let costb := cost b in let costm := cost m in
  if gt costa costm && gt costb costm then Stop (Bracketed t)
  else if gt costb costa then Next (Triple (a / 2) a m)
  else if gt costa costb then Next (Triple m b (b * (3 / 2)))
  else if close costa costm then
    let temp := (a + m) / 2 in
    if gt costa (cost temp) then Next (Triple a temp m) else Stop (GaveUp t)
  else if close costb costm then
    let temp := (m + b) / 2 in
    if gt costb (cost temp) then Next (Triple m temp b) else Stop (GaveUp t)
  else Stop (Thrown t).
(** the loop with a bound on the number of passes *)
Fixpoint bracket (fuel : nat) (cost : R -> num) (t : triple) : outcome :=
  match fuel with
  | O => OutOfFuel t
  | S f => match pass cost t with Next t' => bracket f cost t' | Stop o => o end
  end.
