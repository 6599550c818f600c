(** C39-C42, C83-C85: adaptive step control and drivers. *)
From Coq Require Import Reals Lra Psatz Sorting.Sorted.
From Verif Require Import Prelude Grid_Model Grid_Spec Grid_Proofs Flow_Model Flow_Spec Ode_Model Ode_Spec Ode_Proofs Ode_Proofs2.
Open Scope R_scope.

(** ** C39 *)
(** whatever the error estimates, and whatever the limit on the attempts: an accepted step meets the tolerance or has at most the minimal size; it
    points in the direction of the attempted step and is not longer; after a rejection it is strictly shorter but not below the minimum *)
Theorem C39_accepted_partial : forall fuel mn maxatt err tv t s e n, 0 < mn -> (0 <= maxatt)%Z ->
  qloop fuel mn maxatt err (Some tv) (Some t) 0 = QDone s e n ->
  exists s', s = Some s' /\ e = err s' /\ small_or_ok e s' mn /\ shortened t s' /\ (t <> 0 -> s' <> 0) /\
    ((0 < n)%nat -> mn <= Rabs s' < Rabs t) /\ (n = 0%nat -> s' = t).
Proof.
  intros fuel mn maxatt err tv t s e n Hm Hx E. destruct (qloop_spec fuel mn maxatt err tv t 0 _ Hm Hx E) as [F|(s' & k & F & H)]; [discriminate|].
  injection F as -> -> ->. exists s'. split; [reflexivity|]. split; [reflexivity|]. exact H.
Qed.
Print Assumptions C39_accepted_partial.
(** the suggestion: same direction, between minimal and maximal step, at most twice the accepted one, not longer after a rejection. Missing: an
    infinite error estimate *)
Theorem C39_next_partial : forall t e n mn mx, t <> 0 -> e <> EInf -> 0 < mn -> mn <= mx ->
  0 < t * next_step t e n mn mx /\ mn <= Rabs (next_step t e n mn mx) <= mx /\
  Rabs (next_step t e n mn mx) <= Rmax mn (2 * Rabs t) /\ ((0 < n)%nat -> Rabs (next_step t e n mn mx) <= Rmax mn (Rabs t)).
Proof. exact next_spec. Qed.
Print Assumptions C39_next_partial.
(** with an infinite estimate at the minimal step the step is accepted and the suggested next step is 0: below the minimum, the flow stands still *)
Theorem C39_infinite_error_refuted : forall fuel mn mx maxatt tv t, 0 < mn -> Rabs t <= mn ->
  qloop (S fuel) mn maxatt (fun _ => EInf) (Some tv) (Some t) 0 = QDone (Some t) EInf 0 /\ next_step t EInf 0 mn mx = 0.
Proof.
  intros fuel mn mx maxatt tv t Hm Ht. split.
  - cbn [qloop]. replace (accept EInf (Some t) mn) with true; [reflexivity|]. symmetry. apply accept_true. right. exact Ht.
  - unfold next_step, grow. cbn [Nat.ltb Nat.leb]. rewrite Rmult_0_r, sgn_0. ring.
Qed.
Print Assumptions C39_infinite_error_refuted.
(** a rejected and then accepted step *)
Example C39_hyp : let err := fun t => if Rlt_dec (Rabs t) 1 then EFin (1 / 2) else EFin 16 in
  qloop 2 (1 / 100000) 1000 err (Some 0) (Some (-1)) 0 = QDone (Some (- (4 / 10))) (EFin (1 / 2)) 1.
Proof.
  intro err. assert (E1 : err (-1) = EFin 16) by (unfold err; rewrite Rabs_left by lra; destruct (Rlt_dec (- -1) 1); [lra|reflexivity]).
  assert (E2 : err (- (4 / 10)) = EFin (1 / 2)) by (unfold err; rewrite Rabs_left by lra; destruct (Rlt_dec (- - (4 / 10)) 1); [reflexivity|lra]).
  rewrite (qloop_reject _ _ _ _ _ _ _ (- (4 / 10))); [| lia | rewrite Rabs_left; lra | rewrite E1; intros x E; injection E as <-; lra | | lra].
  - rewrite qloop_accept; rewrite E2; [reflexivity|]. left. exists (1 / 2). split; [reflexivity|lra].
  - rewrite E1. unfold resize. rewrite pow16, sgn_neg, (Rabs_left (-1)) by lra. unfold SAFETY. rewrite (Rabs_left (8 / 10 * -1 * (1 / 2))) by lra.
    rewrite (Rmax_left (- (8 / 10 * -1 * (1 / 2)))) by lra. rewrite Rmax_left by lra. f_equal. lra.
Qed.

(** ** C40 *)
(** the configured maximal number of attempts has no effect *)
Theorem C40_limit_ignored_refuted : forall fuel mn m m' err tv t n, (0 <= m)%Z -> (0 <= m')%Z ->
  qloop fuel mn m err tv t n = qloop fuel mn m' err tv t n.
Proof.
  induction fuel as [|fuel IH]; intros mn m m' err tv t n H H'; [reflexivity|]. cbn [qloop]. rewrite (att_false m H), (att_false m' H').
  destruct (accept _ t mn); [reflexivity|]. destruct (underflow tv _); [reflexivity|]. apply IH; assumption.
Qed.
Print Assumptions C40_limit_ignored_refuted.
(** for every limit [N] there are error estimates with which more than [N] reductions are made *)
Theorem C40_more_reductions_refuted : forall N : nat, exists mn err, 0 < mn /\
  qloop (S (S N)) mn (Z.of_nat N) err (Some 0) (Some 1) 0 = QDone (Some ((4 / 10) ^ S N)) (EFin 16) (S N).
Proof.
  intro N. exists ((4 / 10) ^ S N), (fun _ => EFin 16). split; [apply pow_lt; lra|].
  assert (G : forall k j, (j + k = S N)%nat ->
    qloop (S k) ((4 / 10) ^ S N) (Z.of_nat N) (fun _ => EFin 16) (Some 0) (Some ((4 / 10) ^ j)) j = QDone (Some ((4 / 10) ^ S N)) (EFin 16) (S N)).
  { induction k as [|k IH]; intros j E.
    - replace j with (S N) by lia. cbn [qloop]. replace (accept (EFin 16) (Some ((4 / 10) ^ S N)) ((4 / 10) ^ S N)) with true; [reflexivity|].
      symmetry. apply accept_true. right. rewrite Rabs_pos_eq; [lra|]. apply Rlt_le, pow_lt. lra.
    - assert (P : 0 < (4 / 10) ^ j) by (apply pow_lt; lra). assert (P' : 0 < (4 / 10) ^ S N) by (apply pow_lt; lra).
      assert (Lt : forall k j, (4 / 10) ^ (j + k) <= (4 / 10) ^ j).
      { intros a b. induction a as [|a IHa]; [rewrite Nat.add_0_r; lra|]. rewrite Nat.add_succ_r. cbn [pow]. assert (0 < (4/10)^(b+a)) by (apply pow_lt; lra). lra. }
      pose proof (Lt k (S j)) as Lk. replace (S j + k)%nat with (S N) in Lk by lia. cbn [pow] in Lk.
      rewrite (qloop_reject _ _ _ _ _ _ _ ((4 / 10) ^ S j)); [apply IH; lia | lia | rewrite Rabs_pos_eq; [cbn [pow] in *; lra|lra] | intros x Ex; injection Ex as <-; lra | | apply Rgt_not_eq, pow_lt; lra].
      unfold resize. rewrite pow16, sgn_pos, (Rabs_pos_eq ((4 / 10) ^ j)) by lra. unfold SAFETY.
      rewrite Rabs_pos_eq by lra. replace (8 / 10 * (4 / 10) ^ j * (1 / 2)) with ((4 / 10) ^ S j) by (cbn [pow]; lra).
      rewrite (Rmax_left ((4 / 10) ^ S j)) by (cbn [pow]; lra). rewrite Rmax_left by (cbn [pow] in *; lra). f_equal. ring. }
  apply (G (S N) 0%nat). lia.
Qed.
Print Assumptions C40_more_reductions_refuted.
(** an error estimate that is not-a-number at a step above the minimum is never accepted: the routine does not return *)
Theorem C40_nan_refuted : forall fuel mn maxatt err tv t, (0 <= maxatt)%Z -> err t = ENaN -> mn < Rabs t ->
  qloop fuel mn maxatt err (Some tv) (Some t) 0 = QFuel.
Proof.
  intros fuel mn maxatt err tv t Hx He Ht. destruct fuel as [|fuel]; [reflexivity|]. cbn [qloop]. rewrite He. unfold accept.
  destruct (Rle_dec (Rabs t) mn); [lra|]. cbn [orb]. rewrite (att_false _ Hx). cbn [resize underflow]. apply qloop_nan, Hx.
Qed.
Print Assumptions C40_nan_refuted.
(** without not-a-number, the number of reductions is bounded by the ratio of the attempted to the minimal step *)
Theorem C40_terminates_partial : forall m mn maxatt err tv t, 0 < mn -> (0 <= maxatt)%Z -> (forall x, err x <> ENaN) ->
  (8 / 10) ^ m * Rabs t <= mn -> qloop (S m) mn maxatt err (Some tv) (Some t) 0 <> QFuel.
Proof. intros. apply qloop_terminates; assumption. Qed.
Print Assumptions C40_terminates_partial.
Example C40_hyp : (8 / 10) ^ 4 * Rabs (1 / 5) <= 1 / 10 /\ Rabs 1 > 1 / 100000.
Proof. rewrite !Rabs_pos_eq by lra. cbn [pow]. split; lra. Qed.

(** ** C83 *)
(** the error estimate of an order-5 method with an order-4 embedded one scales with the fifth power of the step *)
Definition predicted_error (e t t' : R) : R := e * (Rabs t' / Rabs t) ^ 5.
(** an accepted step with half of the tolerated error is doubled: the predicted error is 16 times the tolerance *)
Theorem C83_growth_refuted : forall t, t <> 0 -> 1 / 100000 <= 2 * Rabs t <= 10 ->
  next_step t (EFin (1 / 2)) 0 min_t_step max_t_step = 2 * t /\ predicted_error (1 / 2) t (2 * t) = 16.
Proof.
  intros t T0 B. assert (Thr : 1 / 2 < Rpower (MAXGROW / SAFETY) PGROW).
  { replace (MAXGROW / SAFETY) with (5 / 2) by (unfold MAXGROW, SAFETY; field). unfold PGROW. rewrite Rpower_Ropp.
    assert (Q : Rpower (5 / 2) (2 / 10) < 2).
    { apply Rlt_le_trans with (Rpower (5 / 2) (1 / 2)).
      - apply Rpower_lt; lra.
      - replace (1 / 2) with (/ 2) by lra. rewrite Rpower_sqrt by lra. apply Rle_trans with (sqrt 4); [apply sqrt_le_1; lra|rewrite (sqrt_eq 4 2); lra]. }
    assert (P : 0 < Rpower (5 / 2) (2 / 10)) by apply exp_pos. replace (1 / 2) with (/ 2) by lra. apply Rinv_lt_contravar; [nra|exact Q]. }
  split.
  - unfold next_step, grow. cbv zeta. cbn [Nat.ltb Nat.leb]. destruct (Rlt_dec (Rpower (MAXGROW / SAFETY) PGROW) (1 / 2)); [lra|].
    unfold MAXGROW. rewrite Rabs_mult, (Rabs_pos_eq 2) by lra. unfold min_t_step, max_t_step. rewrite Rmax_right, Rmin_left by lra.
    destruct (Rtotal_order t 0) as [L|[L|L]]; [|lra|].
    + rewrite sgn_neg, Rabs_left by lra. lra.
    + rewrite sgn_pos, Rabs_pos_eq by lra. lra.
  - unfold predicted_error. rewrite Rabs_mult, (Rabs_pos_eq 2) by lra. pose proof (Rabs_pos_lt t T0).
    replace (2 * Rabs t / Rabs t) with 2 by (field; lra). lra.
Qed.
Print Assumptions C83_growth_refuted.
(** above the threshold, and after clipping from above, the predicted error is at most 0.8^5 of the tolerance *)
Theorem C83_growth_partial : forall t e, t <> 0 -> Rpower (MAXGROW / SAFETY) PGROW < e ->
  predicted_error e t (grow t (EFin e)) = (8 / 10) ^ 5.
Proof.
  intros t e T0 H. pose proof thr_pos as T. unfold grow. destruct (Rlt_dec (Rpower (MAXGROW / SAFETY) PGROW) e); [|lra].
  pose proof (Rabs_pos_lt t T0). assert (P : 0 < Rpower e PGROW) by apply exp_pos.
  unfold predicted_error, SAFETY. rewrite !Rabs_mult, (Rabs_pos_eq (8 / 10)), (Rabs_pos_eq (Rpower e PGROW)) by lra.
  replace (8 / 10 * Rabs t * Rpower e PGROW / Rabs t) with (8 / 10 * Rpower e PGROW) by (field; lra).
  rewrite Rpow_mult_distr. rewrite <- (Rpower_pow 5 (Rpower e PGROW)) by exact P. rewrite Rpower_mult.
  replace (PGROW * INR 5) with (- (1)) by (unfold PGROW; cbn; lra). rewrite Rpower_Ropp, Rpower_1 by lra. field. lra.
Qed.
Print Assumptions C83_growth_partial.
(** an error above the threshold that is still accepted exists *)
Example C83_hyp : Rpower (MAXGROW / SAFETY) PGROW < 1.
Proof. apply rpow_lt1; [unfold MAXGROW, SAFETY; lra|unfold PGROW; lra]. Qed.

(** ** C84 *)
(** square-root parametrisation: after an accepted step from t to t+s without error estimate, with t+3s outside (-1,1), the suggested step in
    Lambda is not-a-number *)
Theorem C84_nan_suggestion_refuted : forall fuel maxatt t s, -1 < t < 1 -> -1 < t + s < 1 -> s <> 0 -> 1 / 100000 <= 2 * Rabs s <= 10 ->
  1 < Rabs (t + 3 * s) ->
  rkqs (S fuel) sqrt_tof sqrt_lam min_t_step max_t_step maxatt (fun _ => EFin 0) (Some (sqrt_lambda_from_t t))
       (Some (sqrt_lambda_from_t (t + s) - sqrt_lambda_from_t t)) =
  RDone (Some (sqrt_lambda_from_t (t + s))) (Some (sqrt_lambda_from_t (t + s) - sqrt_lambda_from_t t)) None.
Proof.
  intros fuel maxatt t s Ht Hs S0 B O. destruct sqrt_pair as (P1 & P2 & P3 & _).
  unfold rkqs, sqrt_tof. cbn [napp nadd n2 nsub]. replace (sqrt_lambda_from_t t + (sqrt_lambda_from_t (t + s) - sqrt_lambda_from_t t)) with (sqrt_lambda_from_t (t + s)) by ring.
  rewrite !P3 by lra. replace (t + s - t) with s by ring. cbn [qloop].
  replace (accept (EFin 0) (Some s) min_t_step) with true by (symmetry; apply accept_true; left; exists 0; split; [reflexivity|lra]).
  cbn [n1 napp nadd n2]. rewrite (sqrt_lam_some (t + s)) by lra. rewrite (sqrt_lam_some t) by lra. cbn [nsub n2].
  rewrite next0 by (try assumption; unfold min_t_step, max_t_step; lra). replace (t + s + 2 * s) with (t + 3 * s) by ring.
  unfold sqrt_lam. destruct (Rlt_dec ((t + 3 * s) * (t + 3 * s)) 1) as [Q|Q]; [|reflexivity].
  exfalso. unfold Rabs in O. destruct (Rcase_abs (t + 3 * s)); nra.
Qed.
Print Assumptions C84_nan_suggestion_refuted.
(** and with this suggestion the next call does not return, and neither does the driver *)
Theorem C84_hang_refuted : forall k fuel i tof lam maxatt Lf cps err L now prev, (0 <= maxatt)%Z ->
  drive (S k) fuel i tof lam maxatt Lf cps err {| dL := L; dNow := now; dh := None; dprev := prev; dhit := false |} = ([], Running).
Proof.
  intros. cbn [drive]. unfold clip. cbn [dL dNow dh]. replace (nadd L None) with (@None R) by (destruct L; reflexivity). cbn [nsub n2 nmul nltb].
  unfold choose. cbn [dhit dprev dNow]. replace (nadd now None) with (@None R) by (destruct now; reflexivity).
  assert (F : find_checkpoint now None cps = None).
  { induction cps as [|c r IH]; [reflexivity|]. cbn [find_checkpoint]. replace (nltb _ _) with false by (destruct now; reflexivity). exact IH. }
  rewrite F. rewrite rkqs_nan by assumption. reflexivity.
Qed.
Print Assumptions C84_hang_refuted.
Example C84_hyp : -1 < 0 < 1 /\ -1 < 0 + 4 / 10 < 1 /\ 1 < Rabs (0 + 3 * (4 / 10)) /\ 1 / 100000 <= 2 * Rabs (4 / 10) <= 10.
Proof. rewrite !Rabs_pos_eq by lra. lra. Qed.
(** with the linear and the exponential parametrisation the suggestion is a number *)
Theorem C84_total_partial : forall fuel tof lam mn mx maxatt err L h L' hd hn, (forall t, lam t <> None) -> tof L <> None -> (0 <= maxatt)%Z ->
  rkqs fuel tof lam mn mx maxatt err (Some L) h = RDone L' hd hn -> hn <> None.
Proof.
  intros fuel tof lam mn mx maxatt err L h L' hd hn Hl Ht Hx E. unfold rkqs in E. cbn [napp] in E. destruct (tof L) as [tv|] eqn:Et; [|congruence].
  destruct (qloop fuel mn maxatt err (Some tv) (nsub (napp tof (nadd (Some L) h)) (Some tv)) 0) as [t e n| |] eqn:Q; try discriminate.
  destruct t as [t|].
  - cbn [nadd n2 n1 napp] in E. injection E as _ _ <-. pose proof (Hl (tv + t + next_step t e n mn mx)) as N1. pose proof (Hl (tv + t)) as N2.
    destruct (lam (tv + t + next_step t e n mn mx)); [|congruence]. destruct (lam (tv + t)); [|congruence]. discriminate.
  - exfalso. destruct (nsub (napp tof (nadd (Some L) h)) (Some tv)) as [x|].
    + revert Q. generalize 0%nat as m. revert x. induction fuel as [|fuel IH]; intros x m Q; [discriminate|]. cbn [qloop] in Q.
      destruct (accept (err x) (Some x) mn); [discriminate|]. rewrite (att_false _ Hx) in Q. destruct (underflow (Some tv) _); [discriminate|].
      destruct (resize (Some x) (err x) mn) as [y|]; [exact (IH y (S m) Q)|]. rewrite qloop_nan in Q by exact Hx. discriminate.
    + rewrite qloop_nan in Q by exact Hx. discriminate.
Qed.
Print Assumptions C84_total_partial.
Example C84_total_hyp : (forall t, exp_lam t <> None) /\ exp_t_from_lambda 10 <> None /\ (forall t, lin_lam t <> None).
Proof. split; [discriminate|]. split; [|discriminate]. unfold exp_t_from_lambda. destruct (Rlt_dec 0 10); [discriminate|lra]. Qed.

(** ** C41 *)
(** without checkpoints and for a positive end point: every accepted value lies between its predecessor and the end point (so the flow is monotone
    and stays between start and end); no exception; if the driver reports that it finished, the relative distance to the end is below 1e-8 *)
Theorem C41_no_checkpoints_partial : forall fuel N tof lam maxatt Li Lf err, (0 <= maxatt)%Z -> 0 < Lf -> param_ok tof lam Li Lf ->
  exists l e, ode_solver fuel N tof lam maxatt Li Lf [] err = (map Some l, e) /\ approaches Lf Li l /\ e <> Threw /\
    (e = Finished -> Rabs (Lf - last l Li) < 1 / 100000000 * Lf).
Proof.
  intros fuel N tof lam maxatt Li Lf err Hx Hf Hp. unfold ode_solver. eapply drive_spec; try reflexivity; try eassumption. apply between_start.
Qed.
Print Assumptions C41_no_checkpoints_partial.
Theorem C41_parametrisations_partial :
  (forall a b, param_ok lin_tof lin_lam a b) /\ (forall a b, param_ok sqrt_tof sqrt_lam a b) /\
  (forall a b, 0 < a -> 0 < b -> param_ok exp_t_from_lambda exp_lam a b).
Proof. split; [exact lin_ok|]. split; [exact sqrt_ok|exact exp_ok]. Qed.
Print Assumptions C41_parametrisations_partial.
Ltac num := cbn [dL dNow dh dprev dhit nadd nsub nmul n2].
Ltac step0 := num; apply rk_lin0; [lra|unfold min_t_step, max_t_step; rewrite ?Rabs_left by lra; lra].
Example C41_hyp : ode_solver 1 1 lin_tof lin_lam 1000 2 1 [] (fun _ _ _ => EFin 0) = ([Some 1], Exhausted) /\
  approaches 1 2 [1] /\
  ode_solver 1 2 lin_tof lin_lam 1000 3 1 [] (fun _ _ _ => EFin 0) = ([Some 2; Some 1], Exhausted).
Proof.
  rewrite !ode_lin. cbn [length INR Nat.add]. split; [|split; [cbn; unfold between; rewrite Rmin_right, Rmax_left by lra; lra|]].
  - replace (2 + (1 - 2) / 1 - 2) with (-1) by lra. erewrite drive_one; [|apply clip_in; lra|apply choose_plain|step0]. cbn [drive]. repeat f_equal. lra.
  - replace (3 + (1 - 3) / (1 + 1) - 3) with (-1) by lra. erewrite drive_one; [|apply clip_in; lra|apply choose_plain|step0]. num.
    erewrite drive_one; [|apply clip_out; [lra|lra|rewrite Rabs_left; lra]|apply choose_plain|step0]. cbn [drive]. repeat f_equal; lra.
Qed.
(** a checkpoint near the end: the flow from 10 to 8.5 with checkpoint 9 accepts a state at 8 *)
Theorem C41_overshoot_refuted :
  ode_solver 1 1 lin_tof lin_lam 1000 10 (17 / 2) [9] (fun _ _ _ => EFin 0) = ([Some 9; Some 8], Exhausted).
Proof.
  rewrite ode_lin. cbn [length INR Nat.add]. replace (10 + (17 / 2 - 10) / 1 - 10) with (- (3 / 2)) by lra.
  erewrite drive_one; [|apply clip_in; lra| |].
  2:{ unfold choose. cbn [dhit dNow nadd n2 find_checkpoint nsub nmul nltb].
      destruct (Rlt_dec ((10 - 9) * (10 + - (3 / 2) - 9)) (- (1 / 10000000000))); [reflexivity|lra]. }
  2: step0.
  num. erewrite drive_one; [|apply clip_out; [lra|lra|rewrite Rabs_left; lra]| |].
  2:{ unfold choose, nmax. cbn [dhit dNow dprev nadd n2 nsub nltb]. destruct (Rlt_dec (- (3 / 2)) (- (3 / 2) - (17 / 2 - (10 + (9 - 10))))); [|lra].
      cbn [nadd n2 find_checkpoint nsub nmul nltb].
      destruct (Rlt_dec ((10 + (9 - 10) - 9) * (10 + (9 - 10) + (- (3 / 2) - (17 / 2 - (10 + (9 - 10)))) - 9)) (- (1 / 10000000000))); [lra|reflexivity]. }
  2: step0.
  cbn [drive]. repeat f_equal; lra.
Qed.
Print Assumptions C41_overshoot_refuted.
(** a negative end point: the flow from 1 to -1 is reported as finished at 0 *)
Theorem C41_negative_end_refuted :
  ode_solver 1 2 lin_tof lin_lam 1000 1 (-1) [] (fun _ _ _ => EFin 0) = ([Some 0], Finished).
Proof.
  rewrite ode_lin. cbn [length INR Nat.add]. replace (1 + (-1 - 1) / (1 + 1) - 1) with (-1) by lra.
  erewrite drive_one; [|apply clip_in; lra|apply choose_plain|step0]. num.
  rewrite drive_end; [repeat f_equal; lra|]. apply clip_end; [lra|lra|]. rewrite Rabs_left by lra. replace (- (-1 - (1 + -1)) / -1) with (-1) by field. lra.
Qed.
Print Assumptions C41_negative_end_refuted.
(** all steps used up: the driver returns as usual, with a state far from the end point *)
Theorem C41_exhausted_refuted :
  ode_solver 6 1 lin_tof lin_lam 1000 10 1 [] (fun _ _ t => if Rle_dec (Rabs t) 1 then EFin 0 else EInf) = ([Some (91 / 10)], Exhausted).
Proof.
  rewrite ode_lin. cbn [length INR Nat.add]. replace (10 + (1 - 10) / 1 - 10) with (-9) by lra.
  set (err := fun t => if Rle_dec (Rabs t) 1 then EFin 0 else EInf).
  assert (E1 : err (-9) = EInf) by (unfold err; rewrite Rabs_left by lra; destruct (Rle_dec (- -9) 1); [lra|reflexivity]).
  assert (E2 : err (- (9 / 10)) = EFin 0) by (unfold err; rewrite Rabs_left by lra; destruct (Rle_dec (- - (9 / 10)) 1); [reflexivity|lra]).
  erewrite drive_one; [|apply clip_in; lra|apply choose_plain|].
  2:{ unfold rkqs, lin_tof, lin_lam, lin_t_from_lambda, lin_lambda_from_t. num. cbn [napp nadd nsub n2]. replace (10 + -9 - 10) with (-9) by lra. fold err.
      rewrite (qloop_reject _ _ _ _ _ _ _ (- (9 / 10))); [| lia | unfold min_t_step; rewrite Rabs_left; lra | rewrite E1; discriminate | | lra].
      2:{ rewrite E1. unfold resize. rewrite sgn_neg, (Rabs_left (-9)), Rabs_R0 by lra. rewrite (Rmax_right 0) by lra.
          unfold min_t_step. rewrite Rmax_left by lra. f_equal. lra. }
      rewrite qloop_accept by (rewrite E2; left; exists 0; split; [reflexivity|lra]). reflexivity. }
  cbn [drive]. cbn [napp nadd n2]. replace (10 + - (9 / 10)) with (91 / 10) by lra. reflexivity.
Qed.
Print Assumptions C41_exhausted_refuted.

(** ** C42 *)
(** downward flow, checkpoints listed in decreasing order: the chosen step never passes a checkpoint by more than the tolerance *)
Theorem C42_no_crossing_partial : forall cps now h h' prev hit L, decreasing cps -> h <= 0 -> dhit L = false -> dNow L = Some now ->
  choose cps L (Some h) = (Some h', prev, hit) ->
  prev = Some h /\ h <= h' <= 0 /\ (hit = true -> In (now + h') cps) /\
  forall M c, between now (now + h') M -> In c cps -> - (1 / 10000000000) <= (now - c) * (M - c).
Proof.
  intros cps now h h' prev hit L D Hh Eh En E. unfold choose in E. rewrite Eh, En in E. cbn [nadd n2] in E.
  destruct (find_checkpoint (Some now) (Some (now + h)) cps) as [c|] eqn:F.
  - cbn [nsub n2] in E. injection E as <- <- <-. destruct (find_some _ _ _ _ D F ltac:(lra)) as (I1 & I2 & I3). split; [reflexivity|]. split; [lra|].
    split; [intros _; replace (now + (c - now)) with c by ring; exact I1|]. intros M x BM Hx. replace (now + (c - now)) with c in BM by ring.
    unfold between in BM. rewrite Rmin_right, Rmax_left in BM by lra. destruct (I3 x Hx) as [K|K]; [|nra].
    destruct (Rle_dec x M) as [Q|Q]; [nra|]. destruct (Rle_dec now x) as [Q'|Q']; [nra|]. nra.
  - injection E as <- <- <-. split; [reflexivity|]. split; [lra|]. split; [discriminate|]. intros M x BM Hx.
    pose proof (find_none _ _ _ F x Hx) as K. unfold between in BM. rewrite Rmin_right, Rmax_left in BM by lra.
    destruct (Rle_dec x M) as [Q|Q]; [|destruct (Rle_dec now x); nra]. destruct (Rle_dec x now); [nra|nra].
Qed.
Print Assumptions C42_no_crossing_partial.
Example C42_no_crossing_hyp : decreasing [9; 5] /\
  choose [9; 5] {| dL := Some 10; dNow := Some 10; dh := Some (-9); dprev := Some 0; dhit := false |} (Some (-9)) = (Some (9 - 10), Some (-9), true).
Proof.
  split; [unfold decreasing; repeat (apply SSorted_cons || apply SSorted_nil || apply Forall_cons || apply Forall_nil); lra|].
  unfold choose. cbn [dhit dNow nadd n2 find_checkpoint nsub nmul nltb]. destruct (Rlt_dec ((10 - 9) * (10 + -9 - 9)) (- (1 / 10000000000))); [reflexivity|lra].
Qed.
(** checkpoints in increasing order: from 10 to 1 with checkpoints 3 and 5, the checkpoint 5 is passed *)
Theorem C42_order_refuted : forall fuel,
  integrate 5 (S fuel) 0 (fun x => x) (fun x => x) 10 1 [3; 5] (fun _ t dt => TSuccess (t + dt) dt) 10 (-9) None = ([10 + (3 - 10); 10 + (3 - 10) + (1 - (10 + (3 - 10)))], BFinished).
Proof.
  intro fuel. cbn [integrate]. unfold less_with_sign. destruct (Rlt_dec 0 (-9)); [lra|]. destruct (Rlt_dec 1 10); [|lra].
  destruct (Rlt_dec (10 + -9) 1); [lra|]. cbn [find_checkpoint_b]. destruct (Rlt_dec ((10 - 3) * (10 + -9 - 3)) (- (1 / 100000000000000))); [|lra].
  cbn [trials Nat.eqb]. destruct (Rlt_dec 0 (3 - 10)); [lra|]. destruct (Rlt_dec 1 (10 + (3 - 10))); [|lra]. destruct (Rlt_dec 0 (-9)); [lra|].
  destruct (Rlt_dec (10 + (3 - 10) + -9) 1); [|lra]. cbn [find_checkpoint_b].
  destruct (Rlt_dec ((10 + (3 - 10) - 3) * (10 + (3 - 10) + (1 - (10 + (3 - 10))) - 3)) (- (1 / 100000000000000))); [lra|].
  destruct (Rlt_dec ((10 + (3 - 10) - 5) * (10 + (3 - 10) + (1 - (10 + (3 - 10))) - 5)) (- (1 / 100000000000000))); [lra|].
  cbn [trials Nat.eqb]. destruct (Rlt_dec 0 (1 - (10 + (3 - 10)))); [lra|]. destruct (Rlt_dec 1 (10 + (3 - 10) + (1 - (10 + (3 - 10))))); [lra|]. reflexivity.
Qed.
Print Assumptions C42_order_refuted.
(** success in the last allowed trial is reported as failure: with [m] rejections before the success, [m+1] allowed trials do not suffice *)
Theorem C42_last_trial_refuted : forall m fuel, (S m <= fuel)%nat ->
  trials fuel (S m) 0 (halving m) 0 1 = Some (TSuccess (0 + / 2 ^ m) (/ 2 ^ m), S m) /\
  integrate 0 fuel 0 (fun x => x) (fun x => x) (S m) 10 [] (fun _ => halving m) 0 1 None = ([], BThrew) /\
  integrate 0 fuel 0 (fun x => x) (fun x => x) (S (S m)) 10 [] (fun _ => halving m) 0 1 None = ([0 + / 2 ^ m], BMaxSteps).
Proof.
  intros m fuel Hf.
  assert (T : forall a, (S m <= a)%nat -> trials fuel a 0 (halving m) 0 1 = Some (TSuccess (0 + / 2 ^ m) (/ 2 ^ m), S m)).
  { intros a Ha. pose proof (trials_halving m a 0 Ha m 0 fuel ltac:(lia) ltac:(lia)) as T. replace (/ 2 ^ 0) with 1 in T by (cbn; lra). exact T. }
  split; [apply T; lia|]. cbn [integrate]. unfold less_with_sign. destruct (Rlt_dec 0 1); [|lra]. destruct (Rlt_dec 0 10); [|lra]. destruct (Rlt_dec 10 (0 + 1)); [lra|].
  cbn [find_checkpoint_b]. rewrite !T by lia. rewrite Nat.eqb_refl. split; [reflexivity|]. destruct (Nat.eqb_spec (S m) (S (S m))); [lia|reflexivity].
Qed.
Print Assumptions C42_last_trial_refuted.
(** no trials allowed: a failed step is handed over as if it had been made, without any error *)
Theorem C42_zero_trials_refuted : forall fuel stepper t tf dt d, 0 < dt -> t + dt <= tf -> stepper 0%nat t dt = TFail d ->
  integrate 0 (S fuel) 0 (fun x => x) (fun x => x) 0 tf [] stepper t dt None = ([t], BMaxSteps).
Proof.
  intros fuel stepper t tf dt d Hd Ht Hs. cbn [integrate]. unfold less_with_sign. destruct (Rlt_dec 0 dt); [|lra]. destruct (Rlt_dec t tf); [|lra].
  destruct (Rlt_dec tf (t + dt)); [lra|]. cbn [find_checkpoint_b trials]. rewrite Hs. cbn [Nat.ltb Nat.leb Nat.eqb]. reflexivity.
Qed.
Print Assumptions C42_zero_trials_refuted.
(** the number of trials per step is bounded by the configured number (if that is positive), and a step without success uses all of them *)
Theorem C42_trials_partial : forall fuel maxatt stepper t dt, (Nat.max 1 maxatt <= fuel)%nat ->
  exists r k, trials fuel maxatt 0 stepper t dt = Some (r, k) /\ (k <= Nat.max 1 maxatt)%nat /\ forall d, r = TFail d -> (maxatt <= k)%nat.
Proof. intros. apply trials_bounded; lia. Qed.
Print Assumptions C42_trials_partial.

(** ** C85 *)
(** downward flow of the default driver, not clipped: after stopping at a checkpoint the flow continues to the target suggested before *)
Theorem C85_resume_partial : forall cps prev now hdid s, dhit s = true -> dprev s = Some prev -> dNow s = Some now -> prev <= 0 -> hdid <= 0 ->
  find_checkpoint (Some now) (Some (now + (prev - hdid))) cps = None ->
  choose cps s (Some hdid) = (Some (prev - hdid), Some (prev - hdid), false).
Proof.
  intros cps prev now hdid s Eh Ep En Hp Hd F. unfold choose. rewrite Eh, Ep, En. unfold nmax. cbn [nsub n2 nltb].
  destruct (Rlt_dec prev (prev - hdid)) as [L|L].
  - cbn [nadd n2]. rewrite F. reflexivity.
  - replace (prev - hdid) with prev in * by lra. cbn [nadd n2]. rewrite F. reflexivity.
Qed.
Print Assumptions C85_resume_partial.
Example C85_resume_hyp : find_checkpoint (Some 9) (Some (9 + (-3 - -1))) [9; 5] = None.
Proof.
  cbn [find_checkpoint nsub nmul n2 nltb]. destruct (Rlt_dec ((9 - 9) * (9 + (-3 - -1) - 9)) (- (1 / 10000000000))); [lra|].
  destruct (Rlt_dec ((9 - 5) * (9 + (-3 - -1) - 5)) (- (1 / 10000000000))); [lra|reflexivity].
Qed.
(** upward flow: the flow continues with the whole step suggested before, beyond the target *)
Theorem C85_upward_refuted : forall cps prev now hdid s, dhit s = true -> dprev s = Some prev -> dNow s = Some now -> 0 < hdid <= prev ->
  find_checkpoint (Some now) (Some (now + prev)) cps = None -> choose cps s (Some hdid) = (Some prev, Some prev, false).
Proof.
  intros cps prev now hdid s Eh Ep En Hp F. unfold choose. rewrite Eh, Ep, En. unfold nmax. cbn [nsub n2 nltb].
  destruct (Rlt_dec prev (prev - hdid)); [lra|]. cbn [nadd n2]. rewrite F. reflexivity.
Qed.
Print Assumptions C85_upward_refuted.
(** the other driver: once a checkpoint was hit, suggestions of the step control are ignored for the rest of the flow *)
Theorem C85_frozen_refuted : forall k fuel i tof lam maxatt tf cps stepper t dt dt' d, less_with_sign t tf dt = less_with_sign t tf dt' ->
  integrate k fuel i tof lam maxatt tf cps stepper t dt (Some d) = integrate k fuel i tof lam maxatt tf cps stepper t dt' (Some d).
Proof. intros k fuel i tof lam maxatt tf cps stepper t dt dt' d H. destruct k; cbn [integrate]; rewrite H; reflexivity. Qed.
Print Assumptions C85_frozen_refuted.
Example C85_frozen_hyp : less_with_sign 9 1 (-8) = less_with_sign 9 1 (-1 / 1000).
Proof. unfold less_with_sign. destruct (Rlt_dec 0 (-8)), (Rlt_dec 0 (-1 / 1000)); try lra. reflexivity. Qed.

(** ** C86 *)
(** parametrisations in which Lambda grows with t (square root, exponential, linear): a downward flow is continued with a first step upwards, which the
    driver then replaces by the whole remaining interval *)
Theorem C86_restart_refuted : forall tof lam t0 t1 L0 L1 Lf, tof L0 = Some t0 -> tof L1 = Some t1 ->
  (forall s, t1 < s <= t1 + Rmax (Rabs (t1 - t0)) min_t_step -> exists M, lam s = Some M /\ L1 < M) ->
  0 < Lf < L1 -> 1 / 100000000 * Lf <= L1 - Lf ->
  exists d, restart_step tof lam L0 L1 L1 = Some d /\ 0 < d /\
    clip Lf {| dL := Some L1; dNow := Some L1; dh := Some d; dprev := Some 0; dhit := false |} = Some (Some (Lf - L1)).
Proof.
  intros tof lam t0 t1 L0 L1 Lf E0 E1 Hl HL Hn. unfold restart_step. rewrite E0, E1. cbn [nsub n2 n1 napp nadd].
  set (d := Rmax (Rabs (Rmin (Rabs (t1 - t0)) max_t_step)) min_t_step).
  assert (D : 0 < d <= Rmax (Rabs (t1 - t0)) min_t_step).
  { unfold d. split; [eapply Rlt_le_trans; [|apply Rmax_r]; unfold min_t_step; lra|]. apply Rmax_lub; [|apply Rmax_r].
    eapply Rle_trans; [|apply Rmax_l]. rewrite Rabs_pos_eq; [apply Rmin_l|]. apply Rmin_glb; [apply Rabs_pos|unfold max_t_step; lra]. }
  destruct (Hl (t1 + d)) as (M & EM & LM); [lra|]. rewrite EM. exists (M - L1). split; [reflexivity|]. split; [lra|].
  apply clip_out; [nra|lra|]. rewrite Rabs_left by lra. intro Q. apply (Rmult_lt_compat_r Lf) in Q; [|lra].
  unfold Rdiv in Q at 1. rewrite Rmult_assoc, Rinv_l, Rmult_1_r in Q by lra. lra.
Qed.
Print Assumptions C86_restart_refuted.
Example C86_hyp : lin_tof 10 = Some 10 /\ lin_tof 9 = Some 9 /\ (forall s, 9 < s <= 9 + Rmax (Rabs (9 - 10)) min_t_step -> exists M, lin_lam s = Some M /\ 9 < M) /\
  0 < 1 < 9 /\ 1 / 100000000 * 1 <= 9 - 1.
Proof.
  split; [reflexivity|]. split; [reflexivity|]. split; [|lra]. intros s Hs. exists s. split; [reflexivity|lra].
Qed.
(** when t grows along the flow, the flow continues with a step of the same size in t as the last one *)
Theorem C86_restart_partial : forall tof lam t0 t1 L0 L1, tof L0 = Some t0 -> tof L1 = Some t1 -> min_t_step <= t1 - t0 <= max_t_step ->
  restart_step tof lam L0 L1 L1 = nsub (lam (t1 + (t1 - t0))) (Some L1).
Proof.
  intros tof lam t0 t1 L0 L1 E0 E1 B. unfold min_t_step, max_t_step in *. unfold restart_step. rewrite E0, E1. cbn [nsub n2 n1 napp nadd].
  unfold min_t_step, max_t_step. rewrite (Rabs_pos_eq (t1 - t0)) by lra. rewrite Rmin_left by lra. rewrite (Rabs_pos_eq (t1 - t0)) by lra.
  rewrite Rmax_left by lra. reflexivity.
Qed.
Print Assumptions C86_restart_partial.
