(** Lemmas for C35, C36, C81, C82. *)
From Coq Require Import Reals Lra Psatz Sorting.Sorted Sorting.Permutation.
From Verif Require Import Prelude Grid_Model Grid_Spec Grid_Proofs Grid_Proofs2 Grid_Proofs3 Flow_Model Flow_Spec.
Open Scope R_scope.

Lemma insert_perm y g : Permutation (insert_point y g) (y :: g).
Proof.
  induction g as [|x r IH]; cbn; [reflexivity|]. destruct (Rlt_dec x y); [reflexivity|].
  rewrite IH. apply perm_swap.
Qed.
Lemma ss_cons {A} (R : A -> A -> Prop) x l : StronglySorted R (x :: l) <-> StronglySorted R l /\ Forall (R x) l.
Proof. split; [intro H; inversion H; auto|intros [A1 A2]; constructor; assumption]. Qed.
Lemma insert_sorted y g : nonincreasing g -> nonincreasing (insert_point y g).
Proof.
  unfold nonincreasing. induction g as [|x r IH]; intro H; [repeat constructor|]. cbn.
  apply ss_cons in H. destruct H as [H1 H2]. destruct (Rlt_dec x y) as [L|L].
  - apply ss_cons. split; [apply ss_cons; auto|]. constructor; [lra|]. eapply Forall_impl; [|exact H2]. intros; lra.
  - apply ss_cons. split; [apply IH; exact H1|]. apply (Permutation_Forall (Permutation_sym (insert_perm y r))). constructor; [lra|exact H2].
Qed.
Lemma insert_head y x r : y <= x -> insert_point y (x :: r) = x :: insert_point y r.
Proof. intro H. cbn. destruct (Rlt_dec x y); [lra|reflexivity]. Qed.
Lemma add_spec : forall cps x r, nonincreasing (x :: r) ->
  exists r', add_points_to_Lambda_grid (x :: r) cps = Some (x :: r') /\ nonincreasing (x :: r') /\
             Permutation (x :: r') ((x :: r) ++ at_most x (until_negative cps)).
Proof.
  induction cps as [|y cps IH]; intros x r H; cbn [add_points_to_Lambda_grid until_negative].
  - exists r. rewrite app_nil_r. auto.
  - destruct (Rlt_dec y 0) as [L|L]; [exists r; cbn; rewrite app_nil_r; auto|].
    cbn [at_most filter]. destruct (Rle_dec y x) as [B|B].
    + rewrite insert_head by exact B. pose proof (insert_sorted y (x :: r) H) as S. rewrite insert_head in S by exact B.
      destruct (IH x (insert_point y r) S) as (r' & E & S' & P). exists r'. split; [exact E|]. split; [exact S'|].
      rewrite P. fold (at_most x (until_negative cps)). cbn [app]. constructor. rewrite insert_perm. cbn [app]. apply Permutation_middle.
    + apply IH. exact H.
Qed.
Lemma nonincreasing_nodup l : nonincreasing l -> NoDup l -> decreasing l.
Proof.
  unfold nonincreasing, decreasing. induction l as [|x l IH]; intros S N; [constructor|].
  apply ss_cons in S. destruct S as [S F]. inversion N as [|? ? N1 N2]; subst. apply ss_cons. split; [auto|].
  rewrite Forall_forall in *. intros y Hy. specialize (F y Hy). destruct F as [F|F]; [exact F|subst; contradiction].
Qed.
Lemma decreasing_nodup l : decreasing l -> NoDup l.
Proof.
  unfold decreasing. induction l as [|x l IH]; intro S; [constructor|]. apply ss_cons in S. destruct S as [S F].
  constructor; [|auto]. intro H. rewrite Forall_forall in F. specialize (F x H). lra.
Qed.
Lemma decreasing_non l : decreasing l -> nonincreasing l.
Proof.
  unfold decreasing, nonincreasing. induction l as [|x l IH]; intro S; [constructor|]. apply ss_cons in S. destruct S as [S F].
  apply ss_cons. split; [auto|]. eapply Forall_impl; [|exact F]. intros; lra.
Qed.
Lemma last_min l : nonincreasing l -> forall x d, In x l -> last l d <= x.
Proof.
  unfold nonincreasing. induction l as [|y l IH]; intros S x d H; [destruct H|]. apply ss_cons in S. destruct S as [S F].
  destruct l as [|z l]; [cbn in *; destruct H as [->|[]]; lra|].
  change (last (y :: z :: l) d) with (last (z :: l) d).
  destruct H as [->|H]; [|apply IH; assumption]. apply Rle_trans with z; [apply IH; [exact S|left; reflexivity]|].
  inversion F; subst. lra.
Qed.
Lemma last_in (l : list R) d : l <> [] -> In (last l d) l.
Proof.
  intro H. induction l as [|x [|y l] IH]; [contradiction|left; reflexivity|]. right. apply IH. discriminate.
Qed.
Lemma add_last : forall cps x r, nonincreasing (x :: r) -> Forall (fun y => last (x :: r) x <= y) cps ->
  forall r', add_points_to_Lambda_grid (x :: r) cps = Some (x :: r') -> last (x :: r') x = last (x :: r) x.
Proof.
  intros cps x r H F r' E. destruct (add_spec cps x r H) as (r2 & E2 & S & P). rewrite E in E2. injection E2 as <-.
  apply Rle_antisym.
  - apply last_min; [exact S|]. apply (Permutation_in _ (Permutation_sym P)), in_or_app. left. apply last_in. discriminate.
  - assert (I : In (last (x :: r') x) (x :: r')) by (apply last_in; discriminate).
    apply (Permutation_in _ P), in_app_or in I. destruct I as [I|I]; [apply last_min; assumption|].
    apply filter_In in I. destruct I as [I _].
    assert (K : forall l, incl (until_negative l) l).
    { induction l as [|z l IH]; cbn; [apply incl_refl|]. destruct (Rlt_dec z 0); [intros ? []|].
      apply incl_cons; [left; reflexivity|]. apply incl_tl, IH. }
    apply K in I. rewrite Forall_forall in F. apply F. exact I.
Qed.
Lemma until_nonneg l : Forall (fun y => 0 <= y) l -> until_negative l = l.
Proof. induction 1 as [|y l H _ IH]; cbn; [reflexivity|]. destruct (Rlt_dec y 0); [lra|]. now rewrite IH. Qed.

(** checkpoints from interaction values *)
Lemma checkpoints_gen Us U Gamma Lini :
  get_Lambda_checkpoints Us U Gamma Lini = at_most Lini (until_negative (map (fun u => 2 * U / u - Gamma) Us)).
Proof.
  induction Us as [|u Us IH]; cbn; [reflexivity|]. destruct (Rlt_dec (2 * U / u - Gamma) 0); [reflexivity|].
  cbn. destruct (Rle_dec (2 * U / u - Gamma) Lini); rewrite IH; reflexivity.
Qed.
Lemma until_sorted l : nonincreasing l -> until_negative l = filter (fun y => if Rlt_dec y 0 then false else true) l.
Proof.
  unfold nonincreasing. induction l as [|y l IH]; intro S; cbn; [reflexivity|]. apply ss_cons in S. destruct S as [S F].
  destruct (Rlt_dec y 0) as [L|L]; [|f_equal; apply IH; exact S]. symmetry.
  assert (K : Forall (fun z => z < 0) l) by (eapply Forall_impl; [|exact F]; intros; cbn in *; lra).
  clear -K. induction K as [|z l H _ IH]; cbn; [reflexivity|]. destruct (Rlt_dec z 0); [exact IH|lra].
Qed.
Lemma filter_filter {A} (p q : A -> bool) l : filter p (filter q l) = filter (fun x => andb (p x) (q x)) l.
Proof. induction l as [|x l IH]; cbn; [reflexivity|]. destruct (q x) eqn:E; cbn; destruct (p x); cbn; rewrite ?IH; reflexivity. Qed.
Lemma map_decreasing (f : R -> R) l : (forall x y, In x l -> In y l -> x < y -> f x > f y) -> StronglySorted Rlt l -> decreasing (map f l).
Proof.
  unfold decreasing. induction l as [|x l IH]; intros H S; cbn; [constructor|]. apply ss_cons in S. destruct S as [S F].
  apply ss_cons. split; [apply IH; [intros; apply H; try right; assumption|exact S]|].
  rewrite Forall_forall in *. intros z Hz. apply in_map_iff in Hz. destruct Hz as (y & <- & Hy). apply H; [left; reflexivity|right; exact Hy|apply F; exact Hy].
Qed.
Lemma filter_sorted {A} (R : A -> A -> Prop) p l : StronglySorted R l -> StronglySorted R (filter p l).
Proof.
  induction l as [|x l IH]; intro S; cbn; [constructor|]. apply ss_cons in S. destruct S as [S F].
  destruct (p x); [|auto]. apply ss_cons. split; [auto|]. rewrite Forall_forall in *. intros y Hy. apply F. apply filter_In in Hy. apply Hy.
Qed.
Lemma checkpoints_values Us U Gamma Lini : 0 < U -> StronglySorted Rlt Us -> Forall (fun u => 0 < u) Us ->
  decreasing (get_Lambda_checkpoints Us U Gamma Lini) /\
  (forall y, In y (get_Lambda_checkpoints Us U Gamma Lini) <-> exists u, In u Us /\ y = 2 * U / u - Gamma /\ 0 <= y <= Lini).
Proof.
  intros HU S P. rewrite checkpoints_gen.
  assert (D : decreasing (map (fun u => 2 * U / u - Gamma) Us)).
  { apply map_decreasing; [|exact S]. intros x y Hx Hy L. rewrite Forall_forall in P. pose proof (P x Hx). pose proof (P y Hy).
    unfold Rdiv. assert (/ y < / x) by (apply Rinv_lt_contravar; nra). nra. }
  rewrite until_sorted by (apply decreasing_non; exact D). unfold at_most. rewrite filter_filter. split; [apply filter_sorted; exact D|].
  intro y. rewrite filter_In, in_map_iff. split.
  - intros [(u & E & H) B]. exists u. split; [exact H|]. split; [auto|]. apply andb_true_iff in B. destruct B as [B1 B2].
    destruct (Rle_dec y Lini); [|discriminate]. destruct (Rlt_dec y 0); [discriminate|]. lra.
  - intros (u & H & E & B). split; [exists u; auto|]. apply andb_true_iff. destruct (Rle_dec y Lini); [|lra]. destruct (Rlt_dec y 0); [lra|auto].
Qed.

(** construction of the grid *)
Lemma ss_map_seq (f : nat -> R) : forall n s, (forall i j, (s <= i)%nat -> (i < j)%nat -> (j < s + n)%nat -> f i > f j) ->
  StronglySorted Rgt (map f (seq s n)).
Proof.
  induction n as [|n IH]; intros s H; cbn; [constructor|]. apply ss_cons. split.
  - apply IH. intros i j A B C. apply H; lia.
  - rewrite Forall_forall. intros z Hz. apply in_map_iff in Hz. destruct Hz as (j & <- & Hj). apply in_seq in Hj. apply H; lia.
Qed.
Lemma last_map_seq (f : nat -> R) d : forall n s, last (map f (seq s (S n))) d = f (s + n)%nat.
Proof.
  induction n as [|n IH]; intro s; [cbn; f_equal; lia|].
  replace (seq s (S (S n))) with (s :: seq (S s) (S n)) by reflexivity. rewrite map_cons.
  replace (last (f s :: map f (seq (S s) (S n))) d) with (last (map f (seq (S s) (S n))) d).
  - rewrite IH. f_equal. lia.
  - cbn [seq map]. reflexivity.
Qed.
Section Points.
Variables (x_fin x_ini : R) (f g : R -> R) (N : nat).
Hypothesis HN : (1 <= N)%nat.
Hypothesis Hx : x_fin < x_ini.
Hypothesis Hf : f x_fin < f x_ini.
Hypothesis Hg : forall s t, f x_fin <= s -> s < t -> t <= f x_ini -> g s < g t.
Hypothesis Gi : g (f x_ini) = x_ini.
Hypothesis Gf : g (f x_fin) = x_fin.
Let dX := (f x_fin - f x_ini) / INR N.
Lemma INRN : 1 <= INR N. Proof. replace 1 with (INR 1) by reflexivity. apply le_INR. exact HN. Qed.
Lemma dX_neg : dX < 0.
Proof. unfold dX. pose proof INRN. assert (0 < (f x_ini - f x_fin) / INR N) by (apply Rdiv_lt_0_compat; lra). unfold Rdiv in *. lra. Qed.
Lemma dX_N : INR N * dX = f x_fin - f x_ini. Proof. unfold dX. pose proof INRN. field. lra. Qed.
Lemma points_eq : flow_points x_fin x_ini f g N = map (fun i => g (f x_ini + INR i * dX)) (seq 0 (S N)).
Proof.
  unfold flow_points. cbv zeta. fold dX. cbn [seq map]. f_equal. cbn [INR]. rewrite Rmult_0_l, Rplus_0_r. auto.
Qed.
Lemma points_spec : decreasing (flow_points x_fin x_ini f g N) /\ length (flow_points x_fin x_ini f g N) = S N /\
  first_last (flow_points x_fin x_ini f g N) x_ini x_fin.
Proof.
  split; [|split].
  - rewrite points_eq. apply ss_map_seq. intros i j _ L B. pose proof dX_neg as D. pose proof dX_N as E.
    pose proof (lt_INR _ _ L) as LI. pose proof (pos_INR i). assert (INR j <= INR N) by (apply le_INR; lia).
    apply Rlt_gt, Hg; nra.
  - rewrite points_eq, map_length, seq_length. reflexivity.
  - split; [reflexivity|]. rewrite points_eq, last_map_seq. cbn [Nat.add]. rewrite dX_N.
    replace (f x_ini + (f x_fin - f x_ini)) with (f x_fin) by ring. exact Gf.
Qed.
End Points.
Lemma diffs_sum : forall r x, sumR (diffs x r) = last (x :: r) x - x.
Proof.
  induction r as [|y r IH]; intro x; cbn [diffs sumR fold_right]; [cbn; lra|].
  fold (sumR (diffs y r)). rewrite IH.
  assert (E : last (x :: y :: r) x = last (y :: r) y).
  { change (last (x :: y :: r) x) with (last (y :: r) x). clear. revert y. induction r as [|z r IH]; intro y; [reflexivity|].
    change (last (z :: r) x = last (z :: r) y). clear IH. revert z. induction r as [|w r IH]; intro z; [reflexivity|]. apply IH. }
  rewrite E. ring.
Qed.
Lemma diffs_length : forall r x, length (diffs x r) = length r.
Proof. induction r as [|y r IH]; intro x; cbn; [reflexivity|]. f_equal. apply IH. Qed.
Lemma diffs_neg : forall r x, decreasing (x :: r) -> Forall (fun d => d < 0) (diffs x r).
Proof.
  unfold decreasing. induction r as [|y r IH]; intros x S; cbn; [constructor|]. apply ss_cons in S. destruct S as [S F].
  inversion F; subst. constructor; [lra|apply IH; exact S].
Qed.

(** substitutions *)
Lemma ln10 : 0 < ln 10. Proof. rewrite <- ln_1. apply ln_increasing; lra. Qed.
Lemma Ls : 0 < Lambda_scale. Proof. unfold Lambda_scale. lra. Qed.
Lemma pow10_log10 x : 0 < x -> pow10 (log10 x) = x.
Proof. intro H. unfold pow10, log10. pose proof ln10. replace (ln x / ln 10 * ln 10) with (ln x) by (field; lra). apply exp_ln. exact H. Qed.
Lemma log10_pow10 x : log10 (pow10 x) = x.
Proof. unfold pow10, log10. rewrite ln_exp. pose proof ln10. field. lra. Qed.
Lemma pow10_inc x y : x < y -> pow10 x < pow10 y.
Proof. intro H. unfold pow10. apply exp_increasing. pose proof ln10. nra. Qed.
Lemma pow10_pos x : 0 < pow10 x. Proof. apply exp_pos. Qed.
Lemma log_rs x : - Lambda_scale < x -> log_resubstitution (log_substitution x) = x.
Proof.
  intro H. unfold log_resubstitution, log_substitution. pose proof Ls as L. rewrite pow10_log10.
  - field. lra.
  - apply (Rmult_lt_reg_r Lambda_scale); [exact L|]. rewrite Rmult_0_l. replace ((1 + x / Lambda_scale) * Lambda_scale) with (Lambda_scale + x) by (field; lra). lra.
Qed.
Lemma log_sr x : log_substitution (log_resubstitution x) = x.
Proof.
  unfold log_resubstitution, log_substitution. pose proof Ls as L. replace (1 + Lambda_scale * (pow10 x - 1) / Lambda_scale) with (pow10 x) by (field; lra).
  apply log10_pow10.
Qed.
Lemma log_r_inc s t : s < t -> log_resubstitution s < log_resubstitution t.
Proof. intro H. unfold log_resubstitution. pose proof Ls. pose proof (pow10_inc s t H). nra. Qed.
Lemma log_s_inc x y : - Lambda_scale < x -> x < y -> log_substitution x < log_substitution y.
Proof.
  intros H L. destruct (Rtotal_order (log_substitution x) (log_substitution y)) as [A|[A|A]]; [exact A| |].
  - pose proof (log_rs x H). pose proof (log_rs y ltac:(lra)). rewrite A in *. lra.
  - apply log_r_inc in A. rewrite !log_rs in A by lra. lra.
Qed.
Lemma sgn_nonneg_mul x y : 0 <= x -> (x = 0 -> y = 0) -> sgn x * y = y.
Proof. intros H Z. destruct (Req_dec x 0) as [E|E]; [rewrite Z by exact E; ring|rewrite sgn_pos by lra; ring]. Qed.
Lemma sqs_f2 x : sq_substitution x * sgn x = f2 5 x.
Proof.
  unfold sq_substitution, f2. cbv zeta.
  replace (x ^ 4 + 4 * (5 * x) ^ 2) with (x * x * (x * x) + 4 * (x * x) * 5 * 5) by ring. replace (x ^ 2) with (x * x) by ring.
  unfold Rdiv. ring.
Qed.
Lemma sqs_0 : sq_substitution 0 = 0.
Proof.
  unfold sq_substitution. cbv zeta. replace (0 ^ 4 + 4 * (5 * 0) ^ 2) with 0 by ring. rewrite sqrt_0.
  replace ((0 - 0 ^ 2) / 2) with 0 by field. rewrite sqrt_0. field.
Qed.
Lemma sqs_nonneg x : 0 <= x -> sq_substitution x = f2 5 x.
Proof. intro H. rewrite <- sqs_f2. rewrite Rmult_comm. symmetry. apply sgn_nonneg_mul; [exact H|]. intros ->. apply sqs_0. Qed.
Lemma sqr_nonneg t : 0 <= t -> sq_resubstitution t = g2 5 t.
Proof.
  intro H. unfold sq_resubstitution, g2. cbv zeta. rewrite Rabs_pos_eq by exact H.
  replace (t ^ 2) with (t * t) by ring. unfold Rdiv. ring.
Qed.
Lemma H5 : 0 < 5. Proof. lra. Qed.
Lemma sq_range x : 0 <= x -> 0 <= sq_substitution x < 1.
Proof. intro H. rewrite sqs_nonneg by exact H. apply (f2_pos_range 5 H5). exact H. Qed.
Lemma sq_rs x : 0 <= x -> sq_resubstitution (sq_substitution x) = x.
Proof.
  intro H. pose proof (sq_range x H). rewrite sqr_nonneg, sqs_nonneg by lra. apply (g2f2 5 H5).
Qed.
Lemma g2_nonneg t : 0 <= t < 1 -> 0 <= g2 5 t.
Proof. intro H. destruct (Req_dec t 0) as [->|N]; [unfold g2; unfold Rdiv; rewrite Rabs_R0; rewrite !Rmult_0_r; rewrite Rmult_0_l; lra|].
  rewrite <- (odd_0 _ (g2_odd 5)). apply Rlt_le, (g2_inc 5 H5); lra. Qed.
Lemma sq_sr t : 0 <= t < 1 -> sq_substitution (sq_resubstitution t) = t.
Proof.
  intro H. rewrite sqr_nonneg by lra. rewrite sqs_nonneg by (apply g2_nonneg; exact H). apply (f2g2 5 H5). lra.
Qed.
Lemma sq_r_inc s t : 0 <= s -> s < t -> t < 1 -> sq_resubstitution s < sq_resubstitution t.
Proof. intros A B C. rewrite !sqr_nonneg by lra. apply (g2_inc 5 H5); lra. Qed.
Lemma sq_s_inc x y : 0 <= x -> x < y -> sq_substitution x < sq_substitution y.
Proof. intros A B. rewrite !sqs_nonneg by lra. apply (f2_inc 5 H5). exact B. Qed.

(** parametrisations *)
Lemma sqrt_lam_eq t : sqrt_lambda_from_t t = grid_transf_inv_v2 t 5 0.
Proof. unfold sqrt_lambda_from_t, grid_transf_inv_v2. cbv zeta. rewrite <- sgn_mul_abs. unfold Rdiv. ring. Qed.
Lemma sqrt_t_eq L : sqrt_t_from_lambda L = grid_transf_v2 L 5 0.
Proof.
  unfold sqrt_t_from_lambda, grid_transf_v2. cbv zeta. rewrite Rminus_0_r.
  replace (L ^ 4 + 4 * (5 * L) ^ 2) with (L * L * (L * L) + 4 * (L * L) * 5 * 5) by ring. replace (L ^ 2) with (L * L) by ring.
  unfold Rdiv. ring.
Qed.
Lemma deriv_exp_lin a x : derivable_pt_lim (fun t => exp (t * a)) x (exp (x * a) * a).
Proof.
  apply (derivable_pt_lim_comp (fun t => t * a) exp); [|apply derivable_pt_lim_exp].
  assert (D : derivable_pt_lim (fun t => t * a) x (1 * a + x * 0)).
  { apply (derivable_pt_lim_mult id (fun _ => a)); [apply derivable_pt_lim_id|apply derivable_pt_lim_const]. }
  replace (1 * a + x * 0) with a in D by ring. exact D.
Qed.
Lemma deriv_log x : derivable_pt_lim log_lambda_from_t x (log_dlambda_dt x).
Proof.
  unfold log_dlambda_dt, pow10. replace (- Lambda_scale * exp (- x * ln 10) * ln 10) with (Lambda_scale * (exp (x * - ln 10) * - ln 10 - 0)).
  2:{ replace (x * - ln 10) with (- x * ln 10) by ring. ring. }
  apply (deriv_ext (fun t => Lambda_scale * (exp (t * - ln 10) - 1))).
  - intro y. unfold log_lambda_from_t, pow10. replace (y * - ln 10) with (- y * ln 10) by ring. reflexivity.
  - apply (derivable_pt_lim_scal (fun t => exp (t * - ln 10) - 1)).
    apply (derivable_pt_lim_minus (fun t => exp (t * - ln 10)) (fun _ => 1)); [apply deriv_exp_lin|apply derivable_pt_lim_const].
Qed.
Lemma deriv_sqrt_par t : -1 < t < 1 -> derivable_pt_lim sqrt_lambda_from_t t (sqrt_dlambda_dt t).
Proof.
  intro H. apply (deriv_ext (fun t => grid_transf_inv_v2 t 5 0)); [intro; symmetry; apply sqrt_lam_eq|].
  replace (sqrt_dlambda_dt t) with (integration_measure_v2 t 5); [apply measure2; exact H|].
  unfold integration_measure_v2, sqrt_dlambda_dt. cbv zeta. rewrite (Rmult_assoc 5 (sgn t)), sgn_mul_abs. reflexivity.
Qed.
