(** Lemmas on the hybrid grid (C31-C33) and derivatives of the transformations (C78). *)
From Coq Require Import Reals Lra Psatz.
From Verif Require Import Prelude Grid_Model Grid_Spec Grid_Proofs Grid_Proofs2.
Open Scope R_scope.

Lemma sgn_1_abs x : x <> 0 -> Rabs (sgn x) = 1.
Proof. intro H. destruct (Rtotal_order x 0) as [L|[L|L]]; [rewrite sgn_neg, Rabs_left by lra; lra|contradiction|rewrite sgn_pos, Rabs_R1 by lra; reflexivity]. Qed.

Section Hybrid.
Variable g : hybrid.
Notation w1 := (h_w1 g). Notation w2 := (h_w2 g). Notation wu := (h_upper g). Notation T := (h_t_upper g).
Hypothesis H1 : 0 < w1.
Hypothesis H12 : w1 < w2.
Hypothesis H2u : w2 < wu.
Hypothesis HT : 0 < T.
Let k := recip_slope_lin g.
Let tp := temp g.
Lemma tp_pos : 0 < tp. Proof. unfold tp, temp. lra. Qed.
Lemma tq_pos : 0 < temp_quad g.
Proof. unfold temp_quad, temp. nra. Qed.
Lemma k_pos : 0 < k.
Proof. unfold k, recip_slope_lin. pose proof tq_pos. apply Rdiv_lt_0_compat; nra. Qed.
Lemma a0_eq : h_a0 g = 2 * w1 * k.
Proof. unfold h_a0, k, recip_slope_lin. pose proof tq_pos. field. lra. Qed.
Lemma a1_eq : h_a1 g = (w1 + w2) * k.
Proof. unfold h_a1, k, recip_slope_lin. pose proof tq_pos. field. lra. Qed.
Lemma rcq_eq : recip_curvature_quad g = 4 * w1 * (k * k).
Proof. unfold recip_curvature_quad, k, recip_slope_lin. pose proof tq_pos. field. lra. Qed.
Lemma rr_eq : rescale_rat g = k * tp.
Proof. unfold rescale_rat, k, recip_slope_lin, tp. pose proof tq_pos. field. lra. Qed.
Lemma fr_eq : factor_rat g = w2 * w2 / tp. Proof. reflexivity. Qed.
Lemma T_eq : T = k * (tp - w2 * w2 / wu).
Proof. unfold k, recip_slope_lin, tp. pose proof tq_pos as P. unfold temp_quad in *. field. lra. Qed.

(** in units of [k] *)
Definition Hs (s : R) : R :=
  if Rlt_dec s (2 * w1) then s * s / (4 * w1) else if Rlt_dec s (w1 + w2) then s - w1 else w2 * w2 / (tp - s).
Definition Hw (w : R) : R :=
  if Rlt_dec w w1 then sqrt (w * (4 * w1)) else if Rlt_dec w w2 then w + w1 else tp - w2 * w2 / w.
Lemma klt a b : k * a < b * k <-> a < b.
Proof. pose proof k_pos. split; intro; nra. Qed.
Lemma freq_Hs s : 0 < s -> h_frequency_from_t g (k * s) = Hs s.
Proof.
  intros Hp. pose proof k_pos as K. pose proof tp_pos as P. unfold h_frequency_from_t, Hs.
  assert (A : Rabs (k * s) = k * s) by (apply Rabs_pos_eq; nra). rewrite A, sgn_pos by nra.
  rewrite a0_eq, a1_eq, rcq_eq, rr_eq, fr_eq. fold k.
  destruct (Rlt_dec (k * s) (2 * w1 * k)) as [L|L]; destruct (Rlt_dec s (2 * w1)) as [M|M]; try (exfalso; nra).
  - field. lra.
  - destruct (Rlt_dec (k * s) ((w1 + w2) * k)) as [L'|L']; destruct (Rlt_dec s (w1 + w2)) as [M'|M']; try (exfalso; nra).
    + field. lra.
    + destruct (Req_dec (tp - s) 0) as [Z|Z].
      * assert (S : s = tp) by lra. subst s. rewrite Rminus_eq_0.
        replace (1 - k * tp / (k * tp)) with 0 by (field; lra). unfold Rdiv. rewrite Rinv_0. ring.
      * field. repeat split; lra.
Qed.
Lemma t_Hw w : 0 < w -> h_t_from_frequency g w = k * Hw w.
Proof.
  intros Hp. pose proof k_pos as K. pose proof tp_pos as P. unfold h_t_from_frequency, Hw.
  rewrite (Rabs_pos_eq w) by lra. rewrite sgn_pos by lra. rewrite a0_eq, rcq_eq, rr_eq, fr_eq. fold k.
  destruct (Rlt_dec w w1) as [L|L]; [|destruct (Rlt_dec w w2) as [L'|L']].
  - rewrite Rmult_1_r. apply sqrt_eq; [apply Rmult_le_pos; [lra|apply sqrt_pos]|].
    transitivity (k * k * (sqrt (w * (4 * w1)) * sqrt (w * (4 * w1)))); [ring|]. rewrite sqrt_sqrt by nra. ring.
  - ring.
  - field. split; lra.
Qed.
Lemma Hs_inc s s' : 0 <= s < s' -> s' < tp -> Hs s < Hs s'.
Proof.
  intros A B. pose proof tp_pos as P. assert (TP : tp = w1 + 2 * w2) by reflexivity. unfold Hs.
  assert (Q : forall x, 0 <= x < 2 * w1 -> x * x / (4 * w1) < w1).
  { intros x Hx. apply (Rmult_lt_reg_r (4 * w1)); [lra|]. unfold Rdiv. rewrite Rmult_assoc, Rinv_l by lra. nra. }
  assert (F : forall x, w1 + w2 <= x < tp -> w2 <= w2 * w2 / (tp - x)).
  { intros x Hx. apply (Rmult_le_reg_r (tp - x)); [lra|]. unfold Rdiv. rewrite Rmult_assoc, Rinv_l by lra. nra. }
  destruct (Rlt_dec s (2 * w1)) as [L|L]; destruct (Rlt_dec s' (2 * w1)) as [L'|L']; try lra.
  - unfold Rdiv. apply Rmult_lt_compat_r; [apply Rinv_0_lt_compat; lra|nra].
  - pose proof (Q s ltac:(lra)). destruct (Rlt_dec s' (w1 + w2)) as [M|M]; [lra|]. pose proof (F s'). lra.
  - destruct (Rlt_dec s (w1 + w2)) as [M|M]; destruct (Rlt_dec s' (w1 + w2)) as [M'|M']; try lra.
    + pose proof (F s'). lra.
    + unfold Rdiv. apply Rmult_lt_compat_l; [nra|]. apply Rinv_lt_contravar; [nra|lra].
Qed.
Lemma Hw_range w : 0 < w -> 0 < Hw w < tp.
Proof.
  intro H. unfold Hw. assert (TP : tp = w1 + 2 * w2) by reflexivity.
  destruct (Rlt_dec w w1) as [L|L]; [|destruct (Rlt_dec w w2) as [L'|L']].
  - split; [apply sqrt_lt_R0; nra|]. apply Rlt_trans with (2 * w1); [|lra].
    rewrite <- (sqrt_square (2 * w1)) by lra. apply sqrt_lt_1; nra.
  - lra.
  - assert (0 < w2 * w2 / w <= w2).
    { split; [apply Rdiv_lt_0_compat; nra|]. apply (Rmult_le_reg_r w); [lra|]. unfold Rdiv. rewrite Rmult_assoc, Rinv_l by lra. nra. }
    lra.
Qed.
Lemma Hs_Hw w : 0 < w -> Hs (Hw w) = w.
Proof.
  intro H. assert (TP : tp = w1 + 2 * w2) by reflexivity. unfold Hw.
  destruct (Rlt_dec w w1) as [L|L]; [|destruct (Rlt_dec w w2) as [L'|L']]; unfold Hs.
  - assert (S : sqrt (w * (4 * w1)) < 2 * w1).
    { rewrite <- (sqrt_square (2 * w1)) by lra. apply sqrt_lt_1; nra. }
    destruct (Rlt_dec (sqrt (w * (4 * w1))) (2 * w1)); [|contradiction]. rewrite sqrt_sqrt by nra. field. lra.
  - destruct (Rlt_dec (w + w1) (2 * w1)); [lra|]. destruct (Rlt_dec (w + w1) (w1 + w2)); lra.
  - assert (Q : w2 * w2 / w <= w2).
    { apply (Rmult_le_reg_r w); [lra|]. unfold Rdiv. rewrite Rmult_assoc, Rinv_l by lra. nra. }
    destruct (Rlt_dec (tp - w2 * w2 / w) (2 * w1)); [lra|]. destruct (Rlt_dec (tp - w2 * w2 / w) (w1 + w2)); [lra|].
    field. repeat split; nra.
Qed.
Lemma hf_odd : odd (h_t_from_frequency g).
Proof.
  intro w. unfold h_t_from_frequency. rewrite Rabs_Ropp, sgn_opp.
  destruct (Rlt_dec (Rabs w) w1); [ring|]. destruct (Rlt_dec (Rabs w) w2); ring.
Qed.
Lemma hg_odd : odd (h_frequency_from_t g).
Proof.
  intro w. unfold h_frequency_from_t. rewrite Rabs_Ropp, sgn_opp.
  destruct (Rlt_dec (Rabs w) (h_a0 g)); [ring|]. destruct (Rlt_dec (Rabs w) (h_a1 g)); ring.
Qed.
Lemma hg_inc t t' : - rescale_rat g < t -> t < t' -> t' < rescale_rat g -> h_frequency_from_t g t < h_frequency_from_t g t'.
Proof.
  rewrite rr_eq. pose proof k_pos as K. pose proof tp_pos as P.
  assert (Pos : forall s s', 0 <= s < s' -> s' < tp -> h_frequency_from_t g (k * s) < h_frequency_from_t g (k * s')).
  { intros s s' A B. destruct (Req_dec s 0) as [->|N].
    - rewrite Rmult_0_r, (odd_0 _ hg_odd), freq_Hs by lra. pose proof (Hs_inc 0 s' ltac:(lra) B) as M.
      unfold Hs at 1 in M. destruct (Rlt_dec 0 (2 * w1)); [|lra]. unfold Rdiv in M. rewrite !Rmult_0_l in M. exact M.
    - rewrite !freq_Hs by lra. apply Hs_inc; lra. }
  assert (Ek : forall x, x = k * (x / k)) by (intro; field; lra).
  assert (Bd : forall x y, x < y -> x / k < y / k) by (intros; unfold Rdiv; apply Rmult_lt_compat_r; [apply Rinv_0_lt_compat, K|assumption]).
  assert (Ktp : k * tp / k = tp) by (field; lra).
  intros A B C. pose proof (odd_0 _ hg_odd) as Z.
  destruct (Rle_dec 0 t) as [S|S].
  - rewrite (Ek t), (Ek t'). apply Pos.
    + split; [unfold Rdiv; apply Rmult_le_pos; [lra|apply Rlt_le, Rinv_0_lt_compat, K]|apply Bd; exact B].
    + rewrite <- Ktp. apply Bd. exact C.
  - assert (N : h_frequency_from_t g 0 < h_frequency_from_t g (- t)).
    { rewrite (Ek (- t)). rewrite <- (Rmult_0_r k). apply Pos; [split; [lra|]|].
      - replace 0 with (0 / k) by (field; lra). apply Bd. lra.
      - rewrite <- Ktp. apply Bd. lra. }
    pose proof (hg_odd t) as O. destruct (Rle_dec t' 0) as [S'|S'].
    + pose proof (hg_odd t') as O'. assert (M : h_frequency_from_t g (- t') < h_frequency_from_t g (- t)).
      { rewrite (Ek (- t)), (Ek (- t')). apply Pos.
        - split; [unfold Rdiv; apply Rmult_le_pos; [lra|apply Rlt_le, Rinv_0_lt_compat, K]|apply Bd; lra].
        - rewrite <- Ktp. apply Bd. lra. }
      lra.
    + assert (M : h_frequency_from_t g 0 < h_frequency_from_t g t').
      { rewrite (Ek t'). rewrite <- (Rmult_0_r k). apply Pos; [split; [lra|]|].
        - replace 0 with (0 / k) by (field; lra). apply Bd. lra.
        - rewrite <- Ktp. apply Bd. lra. }
      lra.
Qed.
Lemma hgf w : h_frequency_from_t g (h_t_from_frequency g w) = w.
Proof.
  assert (P : forall w, 0 < w -> h_frequency_from_t g (h_t_from_frequency g w) = w).
  { intros x Hx. rewrite t_Hw, freq_Hs by (try exact Hx; apply Hw_range; exact Hx). apply Hs_Hw. exact Hx. }
  destruct (Rtotal_order w 0) as [L|[->|L]]; [|rewrite (odd_0 _ hf_odd); apply (odd_0 _ hg_odd)|apply P; exact L].
  rewrite <- (Ropp_involutive w) at 1. rewrite hf_odd, hg_odd, P; lra.
Qed.
Lemma hf_range w : - rescale_rat g < h_t_from_frequency g w < rescale_rat g.
Proof.
  rewrite rr_eq. pose proof k_pos as K. pose proof tp_pos as Pt.
  assert (P : forall w, 0 < w -> 0 < h_t_from_frequency g w < k * tp).
  { intros x Hx. rewrite t_Hw by exact Hx. pose proof (Hw_range x Hx). split; nra. }
  destruct (Rtotal_order w 0) as [L|[->|L]].
  - pose proof (P (- w) ltac:(lra)) as Q. rewrite hf_odd in Q. lra.
  - rewrite (odd_0 _ hf_odd). nra.
  - pose proof (P w L). lra.
Qed.
Lemma hf_inc w w' : w < w' -> h_t_from_frequency g w < h_t_from_frequency g w'.
Proof.
  intro L. destruct (Rtotal_order (h_t_from_frequency g w) (h_t_from_frequency g w')) as [A|[A|A]]; [exact A| |].
  - pose proof (hgf w). pose proof (hgf w'). rewrite A in *. lra.
  - pose proof (hg_inc _ _ (proj1 (hf_range w')) A (proj2 (hf_range w))) as M. rewrite !hgf in M. lra.
Qed.
Lemma hfg t : - rescale_rat g < t < rescale_rat g -> h_t_from_frequency g (h_frequency_from_t g t) = t.
Proof.
  intros B. set (t' := h_t_from_frequency g (h_frequency_from_t g t)). pose proof (hf_range (h_frequency_from_t g t)) as R. fold t' in R.
  assert (E : h_frequency_from_t g t' = h_frequency_from_t g t) by apply hgf.
  destruct (Rtotal_order t' t) as [A|[A|A]]; [|exact A|].
  - pose proof (hg_inc t' t). lra.
  - pose proof (hg_inc t t'). lra.
Qed.
Lemma hybrid_pair : inverse_pair (h_t_from_frequency g) (h_frequency_from_t g) (rescale_rat g) 0.
Proof.
  split; [exact hf_range|]. split; [exact hgf|]. split; [exact hfg|]. split; [exact hf_inc|]. split; [exact hg_inc|].
  split; [intro x|intro t].
  - rewrite Rplus_0_l. unfold Rminus. rewrite Rplus_0_l, hf_odd. ring.
  - rewrite hg_odd. ring.
Qed.
Lemma T_below : T < rescale_rat g.
Proof. rewrite rr_eq, T_eq. pose proof k_pos. assert (0 < w2 * w2 / wu) by (apply Rdiv_lt_0_compat; nra). nra. Qed.
Lemma hybrid_points : h_frequency_from_t g 0 = 0 /\ h_frequency_from_t g (h_a0 g) = w1 /\ h_frequency_from_t g (h_a1 g) = w2 /\
  h_frequency_from_t g T = wu /\ 0 < h_a0 g < h_a1 g /\ h_a1 g < T.
Proof.
  pose proof k_pos as K. pose proof tp_pos as P. assert (TP : tp = w1 + 2 * w2) by reflexivity.
  assert (Q : w2 * w2 / wu < w2). { apply (Rmult_lt_reg_r wu); [lra|]. unfold Rdiv. rewrite Rmult_assoc, Rinv_l by lra. nra. }
  assert (Q0 : 0 < w2 * w2 / wu) by (apply Rdiv_lt_0_compat; nra).
  split; [apply (odd_0 _ hg_odd)|]. split; [|split; [|split]].
  - rewrite a0_eq. replace (2 * w1 * k) with (k * (2 * w1)) by ring. rewrite freq_Hs by lra. unfold Hs.
    destruct (Rlt_dec (2 * w1) (2 * w1)); [lra|]. destruct (Rlt_dec (2 * w1) (w1 + w2)); lra.
  - rewrite a1_eq. replace ((w1 + w2) * k) with (k * (w1 + w2)) by ring. rewrite freq_Hs by lra. unfold Hs.
    destruct (Rlt_dec (w1 + w2) (2 * w1)); [lra|]. destruct (Rlt_dec (w1 + w2) (w1 + w2)); [lra|]. rewrite TP. field. lra.
  - rewrite T_eq, freq_Hs by lra. unfold Hs. destruct (Rlt_dec (tp - w2 * w2 / wu) (2 * w1)); [lra|].
    destruct (Rlt_dec (tp - w2 * w2 / wu) (w1 + w2)); [lra|]. field. repeat split; nra.
  - rewrite a0_eq, a1_eq, T_eq. split; [split; nra|]. nra.
Qed.
(** both formulas agree where two sections meet, and so do their slopes *)
Lemma hybrid_joins :
  h_a0 g * h_a0 g / recip_curvature_quad g = w1 /\ w1 + (h_a1 g - h_a0 g) / recip_slope_lin g = w2 /\
  factor_rat g / (1 - h_a1 g / rescale_rat g) = w2 /\
  2 * h_a0 g / recip_curvature_quad g = 1 / recip_slope_lin g /\
  factor_rat g / rescale_rat g / ((1 - h_a1 g / rescale_rat g) * (1 - h_a1 g / rescale_rat g)) = 1 / recip_slope_lin g.
Proof.
  pose proof k_pos as K. pose proof tp_pos as P. rewrite a0_eq, a1_eq, rcq_eq, rr_eq, fr_eq. fold k.
  assert (TP : tp = w1 + 2 * w2) by reflexivity. rewrite TP in *.
  assert (E : 1 - (w1 + w2) * k / (k * (w1 + 2 * w2)) = w2 / (w1 + 2 * w2)) by (field; lra).
  rewrite E. repeat split; field; lra.
Qed.

(** the grid points *)
Hypothesis HN : (2 <= h_N g)%nat.
Lemma hINR : 1 <= INR (h_N g) - 1.
Proof. pose proof HN as H. apply le_INR in H. cbn in H. lra. Qed.
Lemma h_spacing_1 : h_spacing g = 1.
Proof. unfold h_spacing, h_t_upper, h_t_lower. pose proof hINR. destruct (h_pos g); field; lra. Qed.
Lemma mid_zero i : h_is_mid g i = true -> h_t_lower g + h_spacing g * INR i = 0.
Proof.
  rewrite h_spacing_1. unfold h_is_mid, h_t_lower. destruct (h_pos g); cbn [negb andb orb].
  - rewrite orb_false_r. intro E. apply Nat.eqb_eq in E. subst i. cbn. ring.
  - intro E. apply andb_true_iff in E. destruct E as [O E]. apply Nat.eqb_eq in E. subst i.
    apply Nat.odd_spec in O. destruct O as [m O]. rewrite O. replace ((2 * m + 1) / 2)%nat with m.
    + rewrite plus_INR, mult_INR. cbn. lra.
    + apply (Nat.div_unique (2 * m + 1) 2 m 1); lia.
Qed.
Lemma h_aux_eq i : h_aux_point g i = h_t_lower g + INR i.
Proof.
  unfold h_aux_point. destruct (h_is_mid g i) eqn:E.
  - apply mid_zero in E. rewrite h_spacing_1 in E. lra.
  - rewrite h_spacing_1. ring.
Qed.
Lemma h_grid_eq i : h_grid_point g i = h_frequency_from_t g (h_t_lower g + INR i).
Proof.
  unfold h_grid_point. destruct (h_is_mid g i) eqn:E.
  - apply mid_zero in E. rewrite h_spacing_1, Rmult_1_l in E. rewrite E. symmetry. apply (odd_0 _ hg_odd).
  - rewrite h_spacing_1, Rmult_1_l. reflexivity.
Qed.
Definition h_lo : R := if h_pos g then 0 else - wu.
Lemma h_tl : h_t_lower g = (if h_pos g then 0 else - T) /\ h_t_lower g + (INR (h_N g) - 1) = T.
Proof. unfold h_t_lower, h_t_upper. destruct (h_pos g); lra. Qed.
Lemma h_dom i : (i < h_N g)%nat -> - rescale_rat g < h_t_lower g + INR i < rescale_rat g.
Proof.
  intro H. pose proof T_below as B. destruct h_tl as [A E]. pose proof (pos_INR i).
  assert (INR i <= INR (h_N g) - 1). { assert (H' : (S i <= h_N g)%nat) by lia. apply le_INR in H'. rewrite S_INR in H'. lra. }
  destruct (h_pos g); lra.
Qed.
Lemma hybrid_from_to : grid_from_to (h_grid_point g) (h_N g) h_lo wu.
Proof.
  destruct hybrid_points as (P0 & _ & _ & PT & _). destruct h_tl as [A E]. split; [|split].
  - rewrite h_grid_eq. cbn [INR]. rewrite Rplus_0_r, A. unfold h_lo. destruct (h_pos g); [exact P0|]. rewrite hg_odd, PT. reflexivity.
  - rewrite h_grid_eq, minus_INR by lia. cbn [INR]. rewrite E. exact PT.
  - intros i j H. rewrite !h_grid_eq. apply hg_inc; [apply h_dom; lia| |apply h_dom; lia].
    apply Rplus_lt_compat_l, lt_INR. lia.
Qed.
Lemma h_index_ok w : h_lo <= w <= wu ->
  exists i, h_get_grid_index g w = Z.of_nat i /\ (i <= h_N g - 2)%nat /\
    h_aux_point g i <= h_t_from_frequency g w + almost_zero /\ h_t_from_frequency g w <= h_aux_point g (S i) /\
    w <= h_grid_point g (S i) /\ (h_aux_point g i <= h_t_from_frequency g w -> h_grid_point g i <= w).
Proof.
  intros [L U]. destruct h_tl as [A E]. pose proof (hybrid_points) as (P0 & _ & _ & PT & _).
  assert (FT : h_t_from_frequency g wu = T).
  { rewrite <- PT. apply hfg. pose proof T_below. pose proof HT. lra. }
  assert (FL : h_t_from_frequency g h_lo = h_t_lower g).
  { unfold h_lo. rewrite A. destruct (h_pos g); [apply (odd_0 _ hf_odd)|]. rewrite hf_odd, FT. reflexivity. }
  assert (FM : forall x y, x <= y -> h_t_from_frequency g x <= h_t_from_frequency g y).
  { intros x y H. destruct (Rle_lt_or_eq_dec _ _ H) as [K| ->]; [apply Rlt_le, hf_inc; exact K|lra]. }
  assert (B1 : h_t_lower g <= h_t_from_frequency g w) by (rewrite <- FL; apply FM; exact L).
  assert (B2 : h_t_from_frequency g w <= T) by (rewrite <- FT; apply FM; exact U).
  set (x := h_t_from_frequency g w - h_t_lower g + almost_zero). pose proof az as Z.
  assert (X0 : 0 <= x) by (unfold x; lra). destruct (trunc_nonneg x X0) as (n & En & Bn).
  unfold h_get_grid_index. fold x. rewrite En. exists (Nat.min (h_N g - 2) n).
  assert (Q : forall i, h_aux_point g i <= h_t_from_frequency g w + almost_zero -> h_t_from_frequency g w <= h_aux_point g (S i) -> (i <= h_N g - 2)%nat ->
    h_aux_point g i <= h_t_from_frequency g w + almost_zero /\ h_t_from_frequency g w <= h_aux_point g (S i) /\
    w <= h_grid_point g (S i) /\ (h_aux_point g i <= h_t_from_frequency g w -> h_grid_point g i <= w)).
  { intros i Q1 Q2 Q3. split; [exact Q1|]. split; [exact Q2|].
    assert (GM : forall s t, - rescale_rat g < s -> s <= t -> t < rescale_rat g -> h_frequency_from_t g s <= h_frequency_from_t g t).
    { intros s t S1 S2 S3. destruct (Rle_lt_or_eq_dec _ _ S2) as [K| ->]; [apply Rlt_le, hg_inc; assumption|lra]. }
    rewrite !h_aux_eq in *. rewrite !h_grid_eq. split.
    - rewrite <- (hgf w) at 1. apply GM; [apply hf_range|exact Q2|apply h_dom; pose proof HN; lia].
    - intro K. rewrite <- (hgf w). apply GM; [apply h_dom; pose proof HN; lia|exact K|apply hf_range]. }
  split; [rewrite Nat2Z.inj_min, Nat2Z.inj_sub by exact HN; lia|]. split; [lia|].
  apply Q; [| |lia]; rewrite h_aux_eq.
  - assert (INR (Nat.min (h_N g - 2) n) <= INR n) by (apply le_INR; lia). unfold x in *. lra.
  - destruct (Nat.le_gt_cases (h_N g - 2) n) as [C|C].
    + rewrite Nat.min_l by exact C. rewrite S_INR, minus_INR by exact HN. change (INR 2) with (1 + 1). lra.
    + rewrite Nat.min_r by lia. rewrite S_INR. unfold x in *. lra.
Qed.
End Hybrid.

(** ** derivatives *)
Lemma deriv_tabs x : derivable_pt_lim (fun t => t * Rabs t) x (2 * Rabs x).
Proof.
  destruct (Rtotal_order x 0) as [L|[->|L]].
  - rewrite Rabs_left by lra. replace (2 * - x) with (1 * Rabs x + x * -1) by (rewrite Rabs_left by lra; ring).
    apply (derivable_pt_lim_mult id Rabs); [apply derivable_pt_lim_id|apply Rabs_derive_2; exact L].
  - rewrite Rabs_R0, Rmult_0_r. intros eps He. exists (mkposreal eps He). intros h Hn Hb. cbn in Hb.
    rewrite Rplus_0_l, Rmult_0_l, !Rminus_0_r. replace (h * Rabs h / h) with (Rabs h) by (field; exact Hn). rewrite Rabs_Rabsolu. exact Hb.
  - rewrite Rabs_pos_eq by lra. replace (2 * x) with (1 * Rabs x + x * 1) by (rewrite Rabs_pos_eq by lra; ring).
    apply (derivable_pt_lim_mult id Rabs); [apply derivable_pt_lim_id|apply Rabs_derive_1; exact L].
Qed.
Lemma deriv_ext f h x l : (forall y, f y = h y) -> derivable_pt_lim f x l -> derivable_pt_lim h x l.
Proof. intros E D eps He. destruct (D eps He) as [d Hd]. exists d. intros k K1 K2. rewrite <- !E. apply Hd; assumption. Qed.
Lemma deriv_1mt2 x : derivable_pt_lim (fun t => 1 - t * t) x (- (2 * x)).
Proof.
  replace (- (2 * x)) with (0 - (1 * x + x * 1)) by ring.
  apply (derivable_pt_lim_minus (fun _ => 1) (fun t => t * t)); [apply derivable_pt_lim_const|].
  apply (derivable_pt_lim_mult id id); apply derivable_pt_lim_id.
Qed.
Lemma deriv_sqrt1 x : -1 < x < 1 -> derivable_pt_lim (fun t => sqrt (1 - t * t)) x (- x / sqrt (1 - x * x)).
Proof.
  intro H. assert (P : 0 < 1 - x * x) by nra. pose proof (sqrt_lt_R0 _ P).
  replace (- x / sqrt (1 - x * x)) with (/ (2 * sqrt (1 - x * x)) * (- (2 * x))) by (field; lra).
  apply (derivable_pt_lim_comp (fun t => 1 - t * t) sqrt); [apply deriv_1mt2|apply derivable_pt_lim_sqrt; exact P].
Qed.
Lemma deriv_num (n d : R -> R) (c W x n' d' : R) : d x <> 0 -> derivable_pt_lim n x n' -> derivable_pt_lim d x d' ->
  derivable_pt_lim (fun t => c + W * n t / d t) x (W * (n' * d x - d' * n x) / (d x * d x)).
Proof.
  intros N Dn Dd.
  replace (W * (n' * d x - d' * n x) / (d x * d x)) with (0 + W * ((n' * d x - d' * n x) / Rsqr (d x))) by (unfold Rsqr; field; exact N).
  apply (deriv_ext (fun t => c + W * (n t / d t))); [intro; unfold Rdiv; ring|].
  apply (derivable_pt_lim_plus (fun _ => c) (fun t => W * (n t / d t))); [apply derivable_pt_lim_const|].
  apply (derivable_pt_lim_scal (fun t => n t / d t)). apply (derivable_pt_lim_div n d); assumption.
Qed.
Lemma measure1 t W c : -1 < t < 1 -> derivable_pt_lim (fun t => grid_transf_inv_v1 t W c) t (integration_measure_v1 t W).
Proof.
  intro H. assert (P : 0 < 1 - t * t) by nra. pose proof (sqrt_lt_R0 _ P) as S. pose proof (sqrt_sqrt _ (Rlt_le _ _ P)) as E.
  unfold integration_measure_v1, grid_transf_inv_v1. cbv zeta.
  replace (W / (sqrt (1 - t * t) * sqrt (1 - t * t) * sqrt (1 - t * t)))
    with (W * (1 * sqrt (1 - t * t) - - t / sqrt (1 - t * t) * t) / (sqrt (1 - t * t) * sqrt (1 - t * t))).
  - apply (deriv_num (fun t => t) (fun t => sqrt (1 - t * t)) c W t 1); [lra|apply derivable_pt_lim_id|apply deriv_sqrt1; exact H].
  - set (r := sqrt (1 - t * t)) in *. transitivity (W * (r * r + t * t) / (r * r * r)); [field; lra|]. rewrite E. field. lra.
Qed.
Lemma measure2 t W c : -1 < t < 1 -> derivable_pt_lim (fun t => grid_transf_inv_v2 t W c) t (integration_measure_v2 t W).
Proof.
  intro H. assert (P : 0 < 1 - t * t) by nra. pose proof (sqrt_lt_R0 _ P) as S. pose proof (sqrt_sqrt _ (Rlt_le _ _ P)) as E.
  unfold integration_measure_v2, grid_transf_inv_v2. cbv zeta. rewrite (Rmult_assoc W (sgn t)), sgn_mul_abs.
  replace (W * Rabs t * (2 - t * t) / (sqrt (1 - t * t) * sqrt (1 - t * t) * sqrt (1 - t * t)))
    with (W * (2 * Rabs t * sqrt (1 - t * t) - - t / sqrt (1 - t * t) * (t * Rabs t)) / (sqrt (1 - t * t) * sqrt (1 - t * t))).
  - apply (deriv_ext (fun t => c + W * (t * Rabs t) / sqrt (1 - t * t))); [intro; rewrite <- (Rmult_assoc W); reflexivity|].
    apply (deriv_num (fun t => t * Rabs t) (fun t => sqrt (1 - t * t)) c W t); [lra|apply deriv_tabs|apply deriv_sqrt1; exact H].
  - set (r := sqrt (1 - t * t)) in *. transitivity (W * Rabs t * (2 * (r * r) + t * t) / (r * r * r)); [field; lra|]. rewrite E. f_equal. ring.
Qed.
Lemma measure3 t W c : -1 < t < 1 -> derivable_pt_lim (fun t => grid_transf_inv_v3 t W c) t (integration_measure_v3 t W).
Proof.
  intro H. assert (P : 0 < 1 - t * t) by nra. unfold integration_measure_v3, grid_transf_inv_v3. cbv zeta.
  replace (W * (1 + t * t) / (1 - t * t) / (1 - t * t)) with (W * (1 * (1 - t * t) - - (2 * t) * t) / ((1 - t * t) * (1 - t * t))) by (field; lra).
  apply (deriv_num (fun t => t) (fun t => 1 - t * t) c W t 1); [lra|apply derivable_pt_lim_id|apply deriv_1mt2].
Qed.
Lemma measure4 t W c : -1 < t < 1 -> derivable_pt_lim (fun t => grid_transf_inv_v4 t W c) t (integration_measure_v4 t W).
Proof.
  intro H. assert (P : 0 < 1 - t * t) by nra. unfold integration_measure_v4, grid_transf_inv_v4. cbv zeta.
  rewrite (Rmult_assoc (2 * W)), sgn_mul_abs.
  replace (2 * W * Rabs t / (1 - t * t) / (1 - t * t)) with (W * (2 * Rabs t * (1 - t * t) - - (2 * t) * (t * Rabs t)) / ((1 - t * t) * (1 - t * t))) by (field; lra).
  apply (deriv_ext (fun t => c + W * (t * Rabs t) / (1 - t * t))).
  - intro y. rewrite <- sgn_mul_abs. unfold Rdiv. ring.
  - apply (deriv_num (fun t => t * Rabs t) (fun t => 1 - t * t) c W t); [lra|apply deriv_tabs|apply deriv_1mt2].
Qed.
