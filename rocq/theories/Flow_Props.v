(** C35, C36, C81, C82: flow grids and parametrisations. *)
From Coq Require Import Reals Lra Psatz Sorting.Sorted Sorting.Permutation.
From Verif Require Import Prelude Grid_Model Grid_Spec Grid_Proofs Grid_Proofs2 Flow_Model Flow_Spec Flow_Proofs.
Open Scope R_scope.

(** ** C35 *)
(** a negative checkpoint makes all later checkpoints disappear *)
Theorem C35_negative_refuted : forall grid y cps, y < 0 -> add_points_to_Lambda_grid grid (y :: cps) = Some grid.
Proof. intros grid y cps H. cbn. destruct (Rlt_dec y 0); [reflexivity|lra]. Qed.
Print Assumptions C35_negative_refuted.
Example C35_negative_hyp : -1 < 0 /\ add_points_to_Lambda_grid [10; 1] [-1; 5] = Some [10; 1] /\
  add_points_to_Lambda_grid [10; 1] [5; -1] = Some [10; 5; 1].
Proof.
  split; [lra|]. cbn. destruct (Rlt_dec (-1) 0); [|lra]. split; [reflexivity|].
  destruct (Rlt_dec 5 0); [lra|]. destruct (Rle_dec 5 10); [|lra]. destruct (Rlt_dec 10 5); [lra|]. destruct (Rlt_dec 1 5); [reflexivity|lra].
Qed.
(** a checkpoint that is already a grid point is inserted again: the grid is no longer decreasing *)
Theorem C35_duplicate_refuted : forall x r y, decreasing (x :: r) -> In y (x :: r) -> 0 <= y ->
  exists l, add_points_to_Lambda_grid (x :: r) [y] = Some l /\ ~ decreasing l.
Proof.
  intros x r y D H P. destruct (add_spec [y] x r (decreasing_non _ D)) as (r' & E & _ & Pm). exists (x :: r'). split; [exact E|].
  intro D'. apply decreasing_nodup in D'.
  assert (B : y <= x). { destruct H as [->|H]; [lra|]. unfold decreasing in D. apply ss_cons in D. destruct D as [_ F]. rewrite Forall_forall in F. specialize (F y H). lra. }
  rewrite (until_nonneg [y]) in Pm by (apply Forall_cons; [exact P|constructor]). cbn [at_most filter] in Pm. destruct (Rle_dec y x); [|lra].
  apply (Permutation_NoDup Pm) in D'. apply NoDup_remove_2 in D'. apply D'. rewrite app_nil_r. exact H.
Qed.
Print Assumptions C35_duplicate_refuted.
Example C35_duplicate_hyp : decreasing [10; 5; 1] /\ In 5 [10; 5; 1] /\ add_points_to_Lambda_grid [10; 5; 1] [5] = Some [10; 5; 5; 1].
Proof.
  split; [|split; [cbn; auto|]].
  - unfold decreasing. repeat (apply ss_cons; split); repeat (apply Forall_cons || apply Forall_nil || apply SSorted_nil); lra.
  - cbn. destruct (Rlt_dec 5 0); [lra|]. destruct (Rle_dec 5 10); [|lra]. destruct (Rlt_dec 10 5); [lra|]. destruct (Rlt_dec 5 5); [lra|].
    destruct (Rlt_dec 1 5); [reflexivity|lra].
Qed.
(** a checkpoint below the final value is appended: the flow would continue beyond its end *)
Theorem C35_below_refuted : forall x r y, nonincreasing (x :: r) -> 0 <= y -> y < last (x :: r) x ->
  exists l, add_points_to_Lambda_grid (x :: r) [y] = Some l /\ last l x = y.
Proof.
  intros x r y S P L. destruct (add_spec [y] x r S) as (r' & E & S' & Pm). exists (x :: r'). split; [exact E|].
  assert (B : y <= x). { pose proof (last_min _ S x x ltac:(left; reflexivity)). lra. }
  rewrite (until_nonneg [y]) in Pm by (apply Forall_cons; [exact P|constructor]). cbn [at_most filter] in Pm. destruct (Rle_dec y x); [|lra].
  apply Rle_antisym.
  - apply last_min; [exact S'|]. apply (Permutation_in _ (Permutation_sym Pm)). apply in_or_app. right. left. reflexivity.
  - assert (I : In (last (x :: r') x) (x :: r')) by (apply last_in; discriminate). apply (Permutation_in _ Pm), in_app_or in I.
    destruct I as [I|[I|[]]]; [|rewrite <- I; lra]. pose proof (last_min _ S _ x I). lra.
Qed.
Print Assumptions C35_below_refuted.
Example C35_below_hyp : nonincreasing [10; 5] /\ 0 <= 2 /\ 2 < last [10; 5] 10.
Proof. split; [|cbn; lra]. unfold nonincreasing. repeat (apply ss_cons; split); repeat (apply Forall_cons || apply Forall_nil || apply SSorted_nil); lra. Qed.
(** what holds for every non-increasing grid and every checkpoint list *)
Theorem C35_order_content_partial : forall cps x r, nonincreasing (x :: r) ->
  exists l, add_points_to_Lambda_grid (x :: r) cps = Some l /\ nonincreasing l /\ hd_error l = Some x /\
            Permutation l ((x :: r) ++ at_most x (until_negative cps)).
Proof. intros cps x r S. destruct (add_spec cps x r S) as (r' & E & S' & P). exists (x :: r'). auto. Qed.
Print Assumptions C35_order_content_partial.
(** complete statement for non-negative new distinct checkpoints not below the final value *)
Theorem C35_new_checkpoints_partial : forall cps x r, decreasing (x :: r) -> Forall (fun y => 0 <= y /\ last (x :: r) x <= y) cps ->
  NoDup ((x :: r) ++ cps) ->
  exists l, add_points_to_Lambda_grid (x :: r) cps = Some l /\ decreasing l /\ first_last l x (last (x :: r) x) /\
            (forall y, In y l <-> In y (x :: r) \/ (In y cps /\ last (x :: r) x <= y <= x)).
Proof.
  intros cps x r D F N. assert (S := decreasing_non _ D). destruct (add_spec cps x r S) as (r' & E & S' & P). exists (x :: r').
  assert (F1 : Forall (fun y => 0 <= y) cps) by (eapply Forall_impl; [|exact F]; cbn; intros; lra).
  assert (F2 : Forall (fun y => last (x :: r) x <= y) cps) by (eapply Forall_impl; [|exact F]; cbn; intros; lra).
  rewrite (until_nonneg cps F1) in P. split; [exact E|]. split; [|split; [split; [reflexivity|apply (add_last cps x r S F2 r' E)]|]].
  - apply nonincreasing_nodup; [exact S'|]. apply (Permutation_NoDup (Permutation_sym P)).
    clear -N. revert N. generalize (x :: r) as l. unfold at_most. intros l N. induction l as [|z l IH]; cbn in *.
    + apply NoDup_filter. exact N.
    + inversion N as [|? ? N1 N2]; subst. constructor; [|apply IH; exact N2]. intro H. apply N1. apply in_app_or in H. apply in_or_app.
      destruct H as [H|H]; [left; exact H|right; apply filter_In in H; apply H].
  - intro y. split.
    + intro H. apply (Permutation_in _ P), in_app_or in H. destruct H as [H|H]; [left; exact H|right].
      apply filter_In in H. destruct H as [H B]. split; [exact H|]. destruct (Rle_dec y x); [|discriminate]. rewrite Forall_forall in F2. split; [apply F2; exact H|assumption].
    + intros [H|[H B]]; apply (Permutation_in _ (Permutation_sym P)), in_or_app; [left; exact H|right].
      apply filter_In. split; [exact H|]. destruct (Rle_dec y x); [reflexivity|lra].
Qed.
Print Assumptions C35_new_checkpoints_partial.
Example C35_new_checkpoints_hyp : decreasing [10; 1] /\ Forall (fun y => 0 <= y /\ last [10; 1] 10 <= y) [3; 20; 7] /\ NoDup ([10; 1] ++ [3; 20; 7]) /\
  add_points_to_Lambda_grid [10; 1] [3; 20; 7] = Some [10; 7; 3; 1].
Proof.
  split; [unfold decreasing; repeat (apply ss_cons; split); repeat (apply Forall_cons || apply Forall_nil || apply SSorted_nil); lra|].
  split; [repeat (apply Forall_cons || apply Forall_nil); cbn; lra|]. split.
  - repeat (apply NoDup_cons || apply NoDup_nil); cbn; intuition lra.
  - cbn. repeat (match goal with |- context [Rlt_dec ?a ?b] => destruct (Rlt_dec a b); try lra | |- context [Rle_dec ?a ?b] => destruct (Rle_dec a b); try lra end; cbn).
    reflexivity.
Qed.

(** ** C36 *)
Theorem C36_exp :
  (forall L, 0 < L -> exists t, exp_t_from_lambda L = Some t /\ exp_lambda_from_t t = L) /\
  (forall t, exp_t_from_lambda (exp_lambda_from_t t) = Some t) /\
  (forall t, derivable_pt_lim exp_lambda_from_t t (exp_dlambda_dt t)).
Proof.
  pose proof ln10 as Z. unfold exp_t_from_lambda, exp_lambda_from_t, exp_dlambda_dt. split; [|split].
  - intros L H. destruct (Rlt_dec 0 L); [|lra]. exists (ln L / ln 10). split; [reflexivity|].
    replace (ln L / ln 10 * ln 10) with (ln L) by (field; lra). apply exp_ln. exact H.
  - intro t. destruct (Rlt_dec 0 (exp (t * ln 10))) as [_|N]; [|pose proof (exp_pos (t * ln 10)); lra]. f_equal. rewrite ln_exp. field. lra.
  - intro t. apply deriv_exp_lin.
Qed.
Print Assumptions C36_exp.
Theorem C36_log :
  (forall L, - / 200 < L -> exists t, log_t_from_lambda L = Some t /\ log_lambda_from_t t = L) /\
  (forall t, log_t_from_lambda (log_lambda_from_t t) = Some t) /\
  (forall t, derivable_pt_lim log_lambda_from_t t (log_dlambda_dt t)).
Proof.
  pose proof Ls as Z. split; [|split].
  - intros L H. unfold log_t_from_lambda, log_lambda_from_t. assert (P : 0 < 1 + L / Lambda_scale) by (unfold Lambda_scale; lra).
    destruct (Rlt_dec 0 (1 + L / Lambda_scale)); [|lra]. eexists. split; [reflexivity|]. rewrite Ropp_involutive, pow10_log10 by exact P. field. lra.
  - intro t. unfold log_t_from_lambda, log_lambda_from_t. replace (1 + Lambda_scale * (pow10 (- t) - 1) / Lambda_scale) with (pow10 (- t)) by (field; lra).
    destruct (Rlt_dec 0 (pow10 (- t))) as [_|N]; [|pose proof (pow10_pos (- t)); lra]. rewrite log10_pow10. f_equal. ring.
  - exact deriv_log.
Qed.
Print Assumptions C36_log.
Theorem C36_sqrt :
  inverse_pair sqrt_t_from_lambda sqrt_lambda_from_t 1 0 /\
  (forall t, -1 < t < 1 -> derivable_pt_lim sqrt_lambda_from_t t (sqrt_dlambda_dt t)).
Proof.
  split; [|exact deriv_sqrt_par]. destruct (pair2 5 0 H5) as (P1 & P2 & P3 & P4 & P5 & P6 & P7).
  split; [intro; rewrite sqrt_t_eq; apply P1|]. split; [intro; rewrite sqrt_t_eq, sqrt_lam_eq; apply P2|].
  split; [intros; rewrite sqrt_t_eq, sqrt_lam_eq; apply P3; assumption|]. split; [intros; rewrite !sqrt_t_eq; apply P4; assumption|].
  split; [intros; rewrite !sqrt_lam_eq; apply P5; assumption|]. split; [intro; rewrite !sqrt_t_eq; apply P6|intro; rewrite !sqrt_lam_eq; apply P7].
Qed.
Print Assumptions C36_sqrt.
Theorem C36_linear : (forall L, lin_lambda_from_t (lin_t_from_lambda L) = L) /\ (forall t, lin_t_from_lambda (lin_lambda_from_t t) = t) /\
  (forall t, derivable_pt_lim lin_lambda_from_t t (lin_dlambda_dt t)).
Proof. split; [reflexivity|]. split; [reflexivity|]. intro t. apply (derivable_pt_lim_id t). Qed.
Print Assumptions C36_linear.
Example C36_hyp : 0 < 5 /\ - / 200 < 0 /\ -1 < 3 / 5 < 1 /\ sqrt_lambda_from_t (3 / 5) = 9 / 4 /\ sqrt_dlambda_dt (3 / 5) = 615 / 64.
Proof.
  split; [lra|]. split; [lra|]. split; [lra|]. unfold sqrt_lambda_from_t, sqrt_dlambda_dt. cbv zeta.
  rewrite (sqrt_eq _ (4 / 5)) by lra. rewrite sgn_pos, Rabs_pos_eq by lra. split; lra.
Qed.
(** the substitutions used for building flow grids *)
Theorem C36_substitutions :
  (forall x, - / 200 < x -> log_resubstitution (log_substitution x) = x) /\ (forall x, log_substitution (log_resubstitution x) = x) /\
  (forall x, 0 <= x -> sq_resubstitution (sq_substitution x) = x) /\ (forall t, 0 <= t < 1 -> sq_substitution (sq_resubstitution t) = t).
Proof.
  split; [intros x H; apply log_rs; unfold Lambda_scale; lra|]. split; [exact log_sr|]. split; [exact sq_rs|exact sq_sr].
Qed.
Print Assumptions C36_substitutions.
Example C36_substitutions_hyp : 0 <= 3 / 5 < 1 /\ sq_resubstitution (3 / 5) = 9 / 4.
Proof. split; [lra|]. unfold sq_resubstitution. cbv zeta. rewrite (sqrt_eq _ (4 / 5)) by lra. lra. Qed.

(** ** C81 *)
Theorem C81_log_grid : forall N x_fin x_ini, (1 <= N)%nat -> - / 200 < x_fin -> x_fin < x_ini ->
  construct_flow_grid x_fin x_ini log_substitution log_resubstitution N [] =
    Some (flow_points x_fin x_ini log_substitution log_resubstitution N) /\
  let l := flow_points x_fin x_ini log_substitution log_resubstitution N in
  decreasing l /\ length l = S N /\ first_last l x_ini x_fin.
Proof.
  intros N a b HN Ha Hab. split; [reflexivity|]. assert (La : - Lambda_scale < a) by (unfold Lambda_scale; lra).
  apply points_spec; try assumption; try (apply log_rs; lra).
  - apply log_s_inc; assumption.
  - intros. apply log_r_inc. assumption.
Qed.
Print Assumptions C81_log_grid.
Theorem C81_sq_grid : forall N x_fin x_ini, (1 <= N)%nat -> 0 <= x_fin -> x_fin < x_ini ->
  let l := flow_points x_fin x_ini sq_substitution sq_resubstitution N in
  construct_flow_grid x_fin x_ini sq_substitution sq_resubstitution N [] = Some l /\ decreasing l /\ length l = S N /\ first_last l x_ini x_fin.
Proof.
  intros N a b HN Ha Hab. split; [reflexivity|]. pose proof (sq_range a Ha). pose proof (sq_range b ltac:(lra)).
  apply points_spec; try assumption; try (apply sq_rs; lra).
  - apply sq_s_inc; assumption.
  - intros. apply sq_r_inc; lra.
Qed.
Print Assumptions C81_sq_grid.
(** with checkpoints *)
Theorem C81_with_checkpoints : forall N x_fin x_ini cps, (1 <= N)%nat -> 0 <= x_fin -> x_fin < x_ini -> Forall (fun y => x_fin <= y) cps ->
  exists l, construct_flow_grid x_fin x_ini sq_substitution sq_resubstitution N cps = Some l /\ nonincreasing l /\ first_last l x_ini x_fin /\
            forall y, In y cps -> y <= x_ini -> In y l.
Proof.
  intros N a b cps HN Ha Hab F. destruct (C81_sq_grid N a b HN Ha Hab) as (_ & D & _ & [_ E]).
  unfold construct_flow_grid. set (l := flow_points a b sq_substitution sq_resubstitution N) in *.
  assert (L : l = b :: tl l) by reflexivity. rewrite L in *. destruct (add_spec cps b (tl l) (decreasing_non _ D)) as (r' & E1 & S & P).
  exists (b :: r'). split; [exact E1|]. split; [exact S|]. split.
  - split; [reflexivity|]. rewrite (add_last cps b (tl l) (decreasing_non _ D)) with (r' := r'); [exact E| |exact E1]. rewrite E. exact F.
  - intros y H B. apply (Permutation_in _ (Permutation_sym P)), in_or_app. right.
    rewrite until_nonneg by (eapply Forall_impl; [|exact F]; cbn; intros; lra). apply filter_In. split; [exact H|]. destruct (Rle_dec y b); [reflexivity|contradiction].
Qed.
Print Assumptions C81_with_checkpoints.
Example C81_hyp : (1 <= 20)%nat /\ 0 <= 1 / 10 /\ 1 / 10 < 198 / 10 /\ Forall (fun y => 1 / 10 <= y) [5; 1; 40].
Proof. split; [lia|]. split; [lra|]. split; [lra|]. repeat (apply Forall_cons || apply Forall_nil); lra. Qed.
Theorem C81_step_sizes : forall x r, decreasing (x :: r) ->
  exists d, flow_grid_step_sizes (x :: r) = Some d /\ length d = length r /\ Forall (fun s => s < 0) d /\ sumR d = last (x :: r) x - x.
Proof.
  intros x r D. exists (diffs x r). split; [reflexivity|]. split; [apply diffs_length|]. split; [apply diffs_neg; exact D|apply diffs_sum].
Qed.
Print Assumptions C81_step_sizes.
Example C81_step_sizes_hyp : decreasing [10; 4; 1] /\ flow_grid_step_sizes [10; 4; 1] = Some [4 - 10; 1 - 4].
Proof. split; [unfold decreasing; repeat (apply ss_cons; split); repeat (apply Forall_cons || apply Forall_nil || apply SSorted_nil); lra|reflexivity]. Qed.

(** ** C82 *)
Theorem C82_checkpoints_partial : forall Us U Gamma Lini, 0 < U -> StronglySorted Rlt Us -> Forall (fun u => 0 < u) Us ->
  let l := get_Lambda_checkpoints Us U Gamma Lini in
  decreasing l /\ (forall y, In y l <-> exists u, In u Us /\ y = 2 * U / u - Gamma /\ 0 <= y <= Lini).
Proof. exact checkpoints_values. Qed.
Print Assumptions C82_checkpoints_partial.
Example C82_checkpoints_hyp : 0 < 1 /\ StronglySorted Rlt [1 / 20; 1; 5; 100] /\ Forall (fun u => 0 < u) [1 / 20; 1; 5; 100] /\
  get_Lambda_checkpoints [1 / 20; 1; 5; 100] 1 (1 / 5) (198 / 10) = [2 * 1 / 1 - 1 / 5; 2 * 1 / 5 - 1 / 5].
Proof.
  split; [lra|]. split; [repeat (apply ss_cons; split); repeat (apply Forall_cons || apply Forall_nil || apply SSorted_nil); lra|]. split; [repeat (apply Forall_cons || apply Forall_nil); lra|].
  cbn. repeat (match goal with |- context [Rlt_dec ?a ?b] => destruct (Rlt_dec a b); try lra | |- context [Rle_dec ?a ?b] => destruct (Rle_dec a b); try lra end; cbn).
  reflexivity.
Qed.
(** for a list that is not ascending values are lost: a large interaction value ends the loop *)
Theorem C82_order_refuted : forall u Us U Gamma Lini, 2 * U / u < Gamma -> get_Lambda_checkpoints (u :: Us) U Gamma Lini = [].
Proof. intros u Us U Gamma Lini H. cbn. destruct (Rlt_dec (2 * U / u - Gamma) 0); [reflexivity|lra]. Qed.
Print Assumptions C82_order_refuted.
Example C82_order_hyp : 2 * 1 / 100 < 1 / 5 /\ get_Lambda_checkpoints [100; 1] 1 (1 / 5) (198 / 10) = [] /\
  get_Lambda_checkpoints [1; 100] 1 (1 / 5) (198 / 10) = [2 * 1 / 1 - 1 / 5].
Proof.
  split; [lra|]. cbn.
  repeat (match goal with |- context [Rlt_dec ?a ?b] => destruct (Rlt_dec a b); try lra | |- context [Rle_dec ?a ?b] => destruct (Rle_dec a b); try lra end; cbn).
  split; reflexivity.
Qed.
