(** C136: the fixed-step Runge-Kutta-4 solver. *)
From Coq Require Import QArith Qfield Lqa.
From Verif Require Import Prelude Rk_Model Rk_Spec Rk4_Model.
Open Scope Q_scope.

Definition proper_rhs {I} (rhs : (I -> Q) -> Q -> I -> Q) : Prop :=
  forall y y' x x' i, (forall j, y j == y' j) -> x == x' -> rhs y x i == rhs y' x' i.
Definition state_of {I} (s : (I -> Q) * Q * nat * nat) : I -> Q := fst (fst (fst s)).
Definition x_of {I} (s : (I -> Q) * Q * nat * nat) : Q := snd (fst (fst s)).
Definition iterations_of {I} (s : (I -> Q) * Q * nat * nat) : nat := snd (fst s).

(** The step is the step of the adaptive solver with the tableau RK4basic (flow parameter Lambda). *)
Theorem C136_same_step : forall {I} (rhs : (I -> Q) -> Q -> I -> Q) rp y x dx n m i, proper_rhs rhs ->
  state_of (RK4_step rhs y x dx n m) i == rk_result (fun t => t) (fun _ => 1) rp RK4basic rhs y (rhs y x) x dx i.
Proof.
  intros I rhs rp y x dx n m i P. unfold state_of, RK4_step. cbn [fst snd].
  assert (Hs : stepsize (fun t => t) rp x dx == dx) by (unfold stepsize; destruct rp; ring).
  unfold rk_result, all_k. set (z0 := fun _ : I => 0).
  cbn [RK4basic stages Nat.sub seq fold_left app nth].
  set (k0 := first_k (fun _ => 1) rp (rhs y x) x).
  set (k1 := stage_k _ _ _ _ _ _ _ _ _ 1). set (k2 := stage_k _ _ _ _ _ _ _ _ _ 2). set (k3 := stage_k _ _ _ _ _ _ _ _ _ 3).
  set (y1 := Yscale (rhs y x) dx). set (y2 := Yscale (rhs _ _) dx). set (y3 := Yscale (rhs _ _) dx). set (y4 := Yscale (rhs _ _) dx).
  assert (E0 : forall j, k0 j * dx == y1 j).
  { intros j. unfold k0, first_k, y1, Yscale. destruct rp; ring. }
  assert (N : forall st, (if rp then x + dx * get_node RK4basic st else x + (x + dx - x) * get_node RK4basic st) == x + dx * get_node RK4basic st)
    by (intros st; destruct rp; ring).
  assert (K : forall (st : nat) (ks : list (I -> Q)) (ys : I -> Q) (xs : Q) j, get_node RK4basic st * dx + x == xs ->
    (forall j, stage_state (fun t => t) rp RK4basic y x dx ks st j == ys j) ->
    stage_k (fun t => t) (fun _ => 1) rp RK4basic rhs y x dx ks st j == rhs ys xs j).
  { intros st ks ys xs j Hx Hy. unfold stage_k. cbv zeta.
    assert (X : (if rp then x + dx * get_node RK4basic st else x + (x + dx - x) * get_node RK4basic st) == xs) by (rewrite N, <- Hx; ring).
    destruct rp; [unfold Yscale; rewrite (P _ ys _ xs j Hy X); ring|apply (P _ ys _ xs j Hy X)]. }
  assert (E1 : forall j, k1 j * dx == y2 j).
  { intros j. unfold k1, y2, Yscale at 1. apply Qmult_comp; [|reflexivity]. apply K.
    - vm_compute (get_node _ _). field.
    - intros l. unfold stage_state. cbn [seq fold_left nth]. unfold Yadd, Yscale at 1. rewrite Hs. vm_compute (get_a _ _ _). unfold Yscale.
      setoid_replace (k0 l * (dx * (1 # 2))) with (k0 l * dx * (1 # 2)) by ring. rewrite E0. reflexivity. }
  assert (E2 : forall j, k2 j * dx == y3 j).
  { intros j. unfold k2, y3, Yscale at 1. apply Qmult_comp; [|reflexivity]. apply K.
    - vm_compute (get_node _ _). field.
    - intros l. unfold stage_state. cbn [seq fold_left nth app]. unfold Yadd, Yscale. rewrite Hs. vm_compute (get_a _ _ _).
      setoid_replace (k1 l * (dx * (1 # 2))) with (k1 l * dx * (1 # 2)) by ring. rewrite E1. unfold Yscale. ring. }
  assert (E3 : forall j, k3 j * dx == y4 j).
  { intros j. unfold k3, y4, Yscale at 1. apply Qmult_comp; [|reflexivity]. apply K.
    - vm_compute (get_node _ _). ring.
    - intros l. unfold stage_state. cbn [seq fold_left nth app]. unfold Yadd, Yscale. rewrite Hs. vm_compute (get_a _ _ _).
      setoid_replace (k2 l * (dx * 1)) with (k2 l * dx) by ring. rewrite E2. unfold Yscale. ring. }
  unfold Yadd, Yscale. rewrite Hs, E0, E1, E2, E3. vm_compute (get_b_high _ _). fold (Yscale (rhs y x) dx).
  change (1 / 6) with (1 # 6). ring.
Qed.
Print Assumptions C136_same_step.

(** counters and end point of the solver, whatever is done to the state between the steps *)
Theorem C136_solver_end : forall {I} (rhs : (I -> Q) -> Q -> I -> Q) post x_vals y it n m,
  (it < length x_vals)%nat ->
  exists s, ODE_solver_RK4 rhs post x_vals y it n m = Some s /\
  x_of s == last x_vals 0 /\ iterations_of s = (n + (length x_vals - 1 - it))%nat /\ ((S it < length x_vals)%nat -> snd s = 0%nat).
Proof.
  intros I rhs post x_vals y it n m Hi. unfold ODE_solver_RK4, flow_grid_step_sizes.
  destruct x_vals as [|a r] eqn:Ex; [cbn in Hi; lia|]. rewrite <- Ex in *. cbn [obind].
  destruct (nth_error x_vals it) as [x0|] eqn:E0; [|apply nth_error_None in E0; lia]. cbn [obind].
  eexists. split; [reflexivity|]. rewrite map_length, seq_length.
  assert (G : forall k it y x n m, (it + k < length x_vals)%nat -> x == nth it x_vals 0 ->
    let s := fold_left (solver_step rhs post (map (fun i => nth i x_vals 0 - nth (i - 1) x_vals 0) (seq 1 (length x_vals - 1)))) (seq it k) (y, x, n, m) in
    x_of s == nth (it + k) x_vals 0 /\ iterations_of s = (n + k)%nat /\ snd s = match k with O => m | _ => 0%nat end).
  { clear. induction k as [|k IH]; intros it y x n m L Hx.
    - cbn [seq fold_left]. replace (it + 0)%nat with it by lia. split; [exact Hx|split; [cbn; lia|reflexivity]].
    - cbn [seq fold_left]. unfold solver_step at 2. unfold RK4_step. set (dx := nth it _ 0).
      assert (D : dx == nth (S it) x_vals 0 - nth it x_vals 0).
      { unfold dx. set (f := fun i => nth i x_vals 0 - nth (i - 1) x_vals 0).
        rewrite (nth_indep (map f _) 0 (f 0%nat)) by (rewrite map_length, seq_length; lia).
        rewrite (map_nth f), seq_nth by lia. unfold f. replace (1 + it - 1)%nat with it by lia. reflexivity. }
      match goal with |- context [fold_left _ _ (?Y, ?X, ?N, ?M)] => specialize (IH (S it) Y X N M) end.
      cbv zeta in IH. destruct IH as (A & B & C); [lia|rewrite D, Hx; ring|].
      replace (it + S k)%nat with (S it + k)%nat by lia. split; [exact A|split; [etransitivity; [exact B|lia]|etransitivity; [exact C|destruct k; reflexivity]]]. }
  specialize (G (length x_vals - 1 - it)%nat it y x0 n m). cbv zeta in G.
  destruct G as (A & B & C); [lia|erewrite nth_error_nth; [reflexivity|exact E0]|].
  split; [|split; [exact B|intros Hl; etransitivity; [exact C|destruct (length x_vals - 1 - it)%nat eqn:En; [lia|reflexivity]]]]. rewrite A. replace (it + (length x_vals - 1 - it))%nat with (length x_vals - 1)%nat by lia.
  assert (LN : forall (l : list Q), nth (length l - 1) l 0 = last l 0).
  { induction l as [|b [|d l] IH]; [reflexivity|reflexivity|]. cbn [length last] in *. rewrite <- IH. cbn [length]. replace (S (S (length l)) - 1)%nat with (S (length l)) by lia.
    cbn [nth]. replace (S (length l) - 1)%nat with (length l) by lia. reflexivity. }
  rewrite LN. reflexivity.
Qed.
Print Assumptions C136_solver_end.

(** A right-hand side that is a polynomial in Lambda of degree at most 3 is integrated exactly, on every grid. *)
Lemma poly_m c x x' : x == x' -> poly c x == poly c x'.
Proof. intros E. induction c as [|a c IH]; cbn [poly]; [reflexivity|]. rewrite IH, E. reflexivity. Qed.
Lemma integral_add c a b d : integral c a b + integral c b d == integral c a d.
Proof. unfold integral. ring. Qed.
Lemma integral_m c a a' b b' : a == a' -> b == b' -> integral c a b == integral c a' b'.
Proof. intros A B. unfold integral. rewrite (poly_m _ _ _ A), (poly_m _ _ _ B). reflexivity. Qed.
Lemma step_poly {I} (rhs : (I -> Q) -> Q -> I -> Q) c y x dx n m i : (forall y x i, rhs y x i == poly (c i) x) -> (length (c i) <= 4)%nat ->
  state_of (RK4_step rhs y x dx n m) i == y i + integral (c i) x (x + dx).
Proof.
  intros H L. unfold state_of, RK4_step. cbn [fst snd]. unfold Yadd, Yscale. rewrite !H.
  destruct (c i) as [|a0 [|a1 [|a2 [|a3 [|a4 r]]]]]; cbn [length] in L; try lia; unfold integral;
  cbv [poly antiderivative inject_Z Z.add Pos.add Pos.succ]; field.
Qed.
Theorem C136_solver_integrates : forall {I} (rhs : (I -> Q) -> Q -> I -> Q) c x_vals y it n m s i,
  (forall y x i, rhs y x i == poly (c i) x) -> (length (c i) <= 4)%nat ->
  ODE_solver_RK4 rhs (fun _ y _ => y) x_vals y it n m = Some s ->
  state_of s i == y i + integral (c i) (nth it x_vals 0) (last x_vals 0).
Proof.
  intros I rhs c x_vals y it n m s i H L E.
  assert (Hi : (it < length x_vals)%nat).
  { unfold ODE_solver_RK4 in E. destruct (flow_grid_step_sizes x_vals); [|discriminate]. cbn [obind] in E.
    destruct (nth_error x_vals it) eqn:E0; [|discriminate]. apply nth_error_Some. congruence. }
  destruct (C136_solver_end rhs (fun _ y _ => y) x_vals y it n m Hi) as (s' & E' & X & _ & _). rewrite E in E'. injection E' as <-.
  rewrite <- (integral_m (c i) (nth it x_vals 0) (nth it x_vals 0) (x_of s) (last x_vals 0)) by (first [reflexivity|exact X]). clear X.
  unfold ODE_solver_RK4 in E. destruct (flow_grid_step_sizes x_vals) as [ds|]; [|discriminate]. cbn [obind] in E.
  destruct (nth_error x_vals it) as [x0|] eqn:E0; [|discriminate]. cbn [obind] in E. injection E as <-.
  erewrite (nth_error_nth _ _ _ E0).
  generalize (seq it (length ds - it)). intros l. generalize y x0 n m. clear - H L.
  induction l as [|j l IH]; intros y x n m; [cbn [fold_left state_of x_of fst snd]; unfold integral; ring|].
  cbn [fold_left]. unfold solver_step at 2 4. unfold RK4_step. cbv zeta beta.
  match goal with |- context [fold_left _ _ (?Y, ?X, ?N, ?M)] => rewrite (IH Y X N M); set (xe := x_of _) end.
  pose proof (step_poly rhs c y x (nth j ds 0) n m i H L) as S1. unfold state_of, RK4_step in S1. cbn [fst snd] in S1. rewrite S1.
  rewrite <- (integral_add (c i) x (x + nth j ds 0) xe). ring.
Qed.
Print Assumptions C136_solver_integrates.
(** a linear equation: every step multiplies by the exponential series up to the fourth order *)
Theorem C136_linear_step : forall {I} (rhs : (I -> Q) -> Q -> I -> Q) z y x dx n m i,
  (forall y x i, rhs y x i == z * y i) -> let w := z * dx in
  state_of (RK4_step rhs y x dx n m) i == y i * (1 + w + w * w / 2 + w * w * w / 6 + w * w * w * w / 24).
Proof.
  intros I rhs z y x dx n m i H w. unfold state_of, RK4_step. cbn [fst snd]. unfold Yadd, Yscale.
  repeat (rewrite H; cbv beta). unfold w. field.
Qed.
Print Assumptions C136_linear_step.
Definition rk4_demo : (unit -> Q) -> Q -> unit -> Q := fun y x _ => x * x - y tt.
Definition cube : (unit -> Q) -> Q -> unit -> Q := fun _ x _ => poly [1; 0; 0; 4] x.
Example C136_hyp : proper_rhs rk4_demo /\ (forall y x i, cube y x i == poly [1; 0; 0; 4] x) /\
  Qred (state_of (RK4_step rk4_demo (fun _ => 1) 1 (1 # 2) 0 3) tt) = 1921 # 1536 /\
  option_map (fun s => (Qred (state_of s tt), x_of s, iterations_of s)) (ODE_solver_RK4 cube (fun _ y _ => y) [2; 1; 0; -1] (fun _ => 5) 1 0 0) =
    Some (3, -1, 2%nat).
Proof.
  split. { intros y y' x x' i E X. unfold rk4_demo. rewrite (E tt), X. reflexivity. }
  split; [reflexivity|]. split; vm_compute; reflexivity.
Qed.
