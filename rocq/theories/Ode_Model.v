(** Adaptive step-size control and the drivers of the flow.
    Model of ODE_solvers/ODE_solvers.hpp:304-422 (rkqs), 447-566 (ode_solver) and 640-738 (integrate_adaptive_check), method Cash-Karp
    (the only one ode_solver uses). Doubles are real numbers or not-a-number ([None]); rounding and overflow are not modelled.
    The right-hand side and the Runge-Kutta step are represented by the error estimate they produce: an arbitrary function [err] of the
    attempted step. (Within one call of rkqs the start state and its derivative are fixed, so the estimate is a function of the step.) *)
From Coq Require Import Reals.
From Verif Require Import Prelude Grid_Model.
Open Scope R_scope.

Definition num := option R.
Definition n1 (f : R -> R) (a : num) : num := match a with Some x => Some (f x) | None => None end.
Definition n2 (f : R -> R -> R) (a b : num) : num := match a, b with Some x, Some y => Some (f x y) | _, _ => None end.
Definition nadd := n2 Rplus.
Definition nsub := n2 Rminus.
Definition nmul := n2 Rmult.
(** comparisons with not-a-number are false *)
Definition nltb (a b : num) : bool := match a, b with Some x, Some y => if Rlt_dec x y then true else false | _, _ => false end.
(** std::max(a,b) = (a < b) ? b : a *)
Definition nmax (a b : num) : num := if nltb a b then b else a.
(** a function of the parametrisation applied to a number that may be NaN *)
Definition napp (f : R -> num) (a : num) : num := match a with Some x => f x | None => None end.

(** the scaled error estimate: not-a-number, a number or infinity *)
Inductive errv := ENaN | EFin (e : R) | EInf.

(** ** rkqs *)
Definition SAFETY : R := 8 / 10.
Definition PGROW : R := - (2 / 10).
Definition PSHRINK : R := - (25 / 100).
Definition MAXGROW : R := 2.
(** 363-367 *)
Definition accept (e : errv) (t : num) (mn : R) : bool :=
  (match e with EFin x => if Rle_dec x 1 then true else false | _ => false end)
  || (match t with Some x => if Rle_dec (Rabs x) mn then true else false | None => false end).
(** 380-381; std::max over an initializer list keeps its first element if that is NaN; pow(inf, PSHRINK) = 0 *)
Definition resize (t : num) (e : errv) (mn : R) : num :=
  match t, e with
  | Some t, EFin x => Some (sgn t * Rmax (Rmax (Rabs (SAFETY * t * Rpower x PSHRINK)) (1 / 10 * Rabs t)) mn)
  | Some t, EInf => Some (sgn t * Rmax (Rmax (Rabs 0) (1 / 10 * Rabs t)) mn)
  | _, _ => None
  end.
(** 383: t_value + t_step == t_value *)
Definition underflow (tv t : num) : bool := match tv, t with Some _, Some x => if Req_EM_T x 0 then true else false | _, _ => false end.
(** [QDone t e n]: step [t] with error [e] accepted after [n] reductions; [QFuel]: still running *)
Inductive qres := QDone (t : num) (e : errv) (n : nat) | QThrow | QFuel.
(** 323-393. [attempts] is initialised with 0 at 321 and never changed; [maxatt]: config.max_stepResizing_attempts *)
Definition attempts : Z := 0.
Fixpoint qloop (fuel : nat) (mn : R) (maxatt : Z) (err : R -> errv) (tv t : num) (n : nat) : qres :=
  match fuel with
  | O => QFuel
  | S fuel =>
      let e := match tv, t with Some _, Some x => err x | _, _ => ENaN end in
      if accept e t mn then QDone t e n
      else if (attempts >? maxatt)%Z then QDone t e n
      else let t' := resize t e mn in
           if underflow tv t' then QThrow else qloop fuel mn maxatt err tv t' (S n)
  end.
(** 395-416; [n > 0] is the flag [rejected] *)
Definition grow (t : R) (e : errv) : R :=
  match e with
  | EFin x => if Rlt_dec (Rpower (MAXGROW / SAFETY) PGROW) x then SAFETY * t * Rpower x PGROW else MAXGROW * t
  | EInf => SAFETY * t * 0
  | ENaN => MAXGROW * t
  end.
Definition next_step (t : R) (e : errv) (n : nat) (mn mx : R) : R :=
  let g := grow t e in
  let g := if (0 <? n)%nat then sgn t * Rmin (Rabs g) (Rabs t) else g in
  sgn g * Rmin (Rmax mn (Rabs g)) mx.
(** 304-422. [tof], [lam]: FlowGrid::t_from_lambda and lambda_from_t. Results: new Lambda, hdid, hnext *)
Inductive rres := RDone (L hdid hnext : num) | RThrow | RFuel.
Definition rkqs (fuel : nat) (tof lam : R -> num) (mn mx : R) (maxatt : Z) (err : R -> errv) (L htry : num) : rres :=
  let tv := napp tof L in
  let ts := nsub (napp tof (nadd L htry)) tv in
  match qloop fuel mn maxatt err tv ts 0 with
  | QFuel => RFuel
  | QThrow => RThrow
  | QDone t e n =>
      let L' := napp lam (nadd tv t) in
      RDone L' (nsub L' (napp lam tv))
            (nsub (napp lam (nadd (nadd tv t) (n1 (fun t => next_step t e n mn mx) t))) L')
  end.

(** ** ode_solver *)
(** 478-479 *)
Definition max_t_step : R := 10.
Definition min_t_step : R := 1 / 100000.
(** 534-545: the first checkpoint of the list that is crossed *)
Fixpoint find_checkpoint (now next : num) (cps : list R) : option R :=
  match cps with
  | [] => None
  | c :: r => if nltb (nmul (nsub now (Some c)) (nsub next (Some c))) (Some (- (1 / 10000000000))) then Some c else find_checkpoint now next r
  end.
Record dst := { dL : num; dNow : num; dh : num; dprev : num; dhit : bool }.
(** how the driver ended: message "Final Lambda reached", all steps used, exception, rkqs does not return *)
Inductive dend := Finished | Exhausted | Threw | Running.
(** 512-528; [None]: break. Division by Lambda_f = 0 gives infinity or NaN, both compare false *)
Definition clip (Lf : R) (s : dst) : option num :=
  let tgt := nadd (dL s) (dh s) in
  if nltb (Some 0) (nmul (nsub tgt (Some Lf)) (nsub tgt (dNow s)))
  then let small := if Req_EM_T Lf 0 then false else nltb (n1 (fun x => Rabs x / Lf) (nsub (Some Lf) (dL s))) (Some (1 / 100000000)) in
       if small then None else Some (nsub (Some Lf) (dL s))
  else Some (dh s).
(** 530-548; result: the step handed to rkqs, h_try_prev and the flag *)
Definition choose (cps : list R) (s : dst) (h : num) : num * num * bool :=
  let h := if dhit s then nmax (dprev s) (nsub (dprev s) h) else h in
  match find_checkpoint (dNow s) (nadd (dNow s) h) cps with
  | Some c => (nsub (Some c) (dNow s), h, true)
  | None => (h, h, false)
  end.
(** 500-562. [err i L]: error estimates in iteration [i] starting from [L]. Result: values of Lambda after each step, and how it ended *)
Fixpoint drive (k fuel : nat) (i : nat) (tof lam : R -> num) (maxatt : Z) (Lf : R) (cps : list R) (err : nat -> num -> R -> errv) (s : dst)
  : list num * dend :=
  match k with
  | O => ([], Exhausted)
  | S k =>
      match clip Lf s with
      | None => ([], Finished)
      | Some h =>
          let '(h, prev, hit) := choose cps s h in
          match rkqs fuel tof lam min_t_step max_t_step maxatt (err i (dL s)) (dL s) h with
          | RFuel => ([], Running)
          | RThrow => ([], Threw)
          | RDone L hdid hnext =>
              let s' := {| dL := L; dNow := nadd (dNow s) hdid; dh := if hit then hdid else hnext; dprev := prev; dhit := hit |} in
              let '(v, e) := drive k fuel (S i) tof lam maxatt Lf cps err s' in (L :: v, e)
          end
      end
  end.
(** 447-498 for a new flow (iter_start = 0, Lambda_now = Lambda_i): the first step is the first step of the flow grid with [N] points *)
Definition ode_solver (fuel N : nat) (tof lam : R -> num) (maxatt : Z) (Li Lf : R) (cps : list R) (err : nat -> num -> R -> errv) : list num * dend :=
  let Ti := tof Li in let Tf := tof Lf in
  let dT := n1 (fun x => x / INR N) (nsub Tf Ti) in
  let h := nsub (napp lam (nadd Ti dT)) (Some Li) in
  drive (N + length cps) fuel 0 tof lam maxatt Lf cps err {| dL := Some Li; dNow := Some Li; dh := h; dprev := Some 0; dhit := false |}.

(** ** integrate_adaptive_check, with REPARAMETRIZE_FLOWGRID, real parametrisation *)
(** boost: less_with_sign(t1,t2,dt), up to its tolerance of one unit in the last place *)
Definition less_with_sign (t1 t2 dt : R) : bool := if Rlt_dec 0 dt then (if Rlt_dec t1 t2 then true else false) else (if Rlt_dec t2 t1 then true else false).
(** result of one try_step of the boost stepper at (t, dt): success with new time and suggestion, or failure with a new step size *)
Inductive tres := TSuccess (t dt : R) | TFail (dt : R).
(** 685-720 do-while; result: the last outcome, the number of trials. At most [maxatt] trials if [maxatt >= 1] *)
Fixpoint trials (fuel : nat) (maxatt n : nat) (stepper : R -> R -> tres) (t dt : R) : option (tres * nat) :=
  match fuel with
  | O => None
  | S fuel =>
      match stepper t dt with
      | TSuccess t' dt' => Some (TSuccess t' dt', S n)
      | TFail dt' => if (S n <? maxatt)%nat then trials fuel maxatt (S n) stepper t dt' else Some (TFail dt', S n)
      end
  end.
Fixpoint find_checkpoint_b (now next : R) (cps : list R) : option R :=
  match cps with
  | [] => None
  | c :: r => if Rlt_dec ((now - c) * (next - c)) (- (1 / 100000000000000)) then Some c else find_checkpoint_b now next r
  end.
Inductive bend := BFinished | BMaxSteps | BThrew | BRunning.
(** 640-738. [dt_temp]: [None] as long as no checkpoint was hit (previously_hit_lambda_checkpoint, never reset). The stepper may depend on the
    iteration *)
Fixpoint integrate (k fuel i : nat) (tof lam : R -> R) (maxatt : nat) (t_final : R) (cps : list R) (stepper : nat -> R -> R -> tres)
  (t dt : R) (dt_temp : option R) : list R * bend :=
  if less_with_sign t t_final dt then
    let dt := match dt_temp with Some d => d | None => dt end in
    let dt := if less_with_sign t_final (t + dt) dt then t_final - t else dt in
    let '(dt, dt_temp) := match find_checkpoint_b (lam t) (lam (t + dt)) cps with
                          | Some c => (tof c - tof (lam t), Some dt)
                          | None => (dt, dt_temp)
                          end in
    match trials fuel maxatt 0 (stepper i) t dt with
    | None => ([], BRunning)
    | Some (r, n) =>
        if (n =? maxatt)%nat then ([], BThrew)
        else let '(t', dt') := match r with TSuccess t' dt' => (t', dt') | TFail dt' => (t, dt') end in
             match k with
             | O => ([lam t'], BMaxSteps)
             | S k => let '(v, e) := integrate k fuel (S i) tof lam maxatt t_final cps stepper t' dt' dt_temp in (lam t' :: v, e)
             end
    end
  else ([], BFinished).

(** ode_solver 485-493: the first step of a continued flow; [L0], [L1]: the last two values of the interrupted flow, [L]: where it continues *)
Definition restart_step (tof lam : R -> num) (L0 L1 L : R) : num :=
  let d := nsub (tof L1) (tof L0) in
  let d := n1 (fun x => Rmin (Rabs x) max_t_step) d in
  let d := n1 (fun x => Rmax (Rabs x) min_t_step) d in
  nsub (napp lam (nadd (tof L) d)) (Some L).
