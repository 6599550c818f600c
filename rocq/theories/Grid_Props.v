(** C30-C34, C78-C80: frequency grids. *)
From Coq Require Import Reals Lra Psatz.
From Verif Require Import Prelude Grid_Model Grid_Spec Grid_Proofs Grid_Proofs2 Grid_Proofs3.
Open Scope R_scope.

(** ** C30 *)
Theorem C30_v1_partial : forall W c, 0 < W -> inverse_pair (fun w => grid_transf_v1 w W c) (fun t => grid_transf_inv_v1 t W c) 1 c.
Proof. exact pair1. Qed.
Print Assumptions C30_v1_partial.
Example C30_v1_hyp : 0 < 3 /\ grid_transf_v1 (1 + 4) 3 1 = 4 / 5 /\ grid_transf_inv_v1 (4 / 5) 3 1 = 5.
Proof.
  split; [lra|]. unfold grid_transf_v1, grid_transf_inv_v1. split.
  - cbv zeta. rewrite (sqrt_eq (3 * 3 + (1 + 4 - 1) * (1 + 4 - 1)) 5) by lra. field.
  - rewrite (sqrt_eq (1 - 4 / 5 * (4 / 5)) (3 / 5)) by lra. field.
Qed.
Theorem C30_v2_partial : forall W c, 0 < W -> inverse_pair (fun w => grid_transf_v2 w W c) (fun t => grid_transf_inv_v2 t W c) 1 c.
Proof. exact pair2. Qed.
Print Assumptions C30_v2_partial.
Example C30_v2_hyp : 0 < 2 /\ grid_transf_inv_v2 (- (3 / 5)) 2 1 = 1 - 9 / 10.
Proof.
  split; [lra|]. unfold grid_transf_inv_v2. rewrite (sqrt_eq _ (4 / 5)) by lra. rewrite Rabs_left by lra. field.
Qed.
Theorem C30_v4_partial : forall W c, 0 < W -> inverse_pair (fun w => grid_transf_v4 w W c) (fun t => grid_transf_inv_v4 t W c) 1 c.
Proof. exact pair4. Qed.
Print Assumptions C30_v4_partial.
Example C30_v4_hyp : 0 < 3 /\ grid_transf_v4 (2 - 1) 3 2 = - (1 / 2) /\ grid_transf_inv_v4 (- (1 / 2)) 3 2 = 1.
Proof.
  split; [lra|]. unfold grid_transf_v4, grid_transf_inv_v4. cbv zeta. split.
  - rewrite Rabs_left by lra. rewrite sgn_neg by lra. rewrite (sqrt_eq _ (1 / 2)); [lra|lra|field].
  - rewrite sgn_neg by lra. field.
Qed.
(** linear mapping (finite-temperature Matsubara): increasing and inverse on the whole axis *)
Theorem C30_linear_partial : forall W, 0 < W ->
  (forall w, grid_transf_inv_lin (grid_transf_lin w W) W = w) /\ (forall t, grid_transf_lin (grid_transf_inv_lin t W) W = t) /\
  (forall w w', w < w' -> grid_transf_lin w W < grid_transf_lin w' W) /\ (forall w, grid_transf_lin (- w) W = - grid_transf_lin w W).
Proof.
  intros W H. unfold grid_transf_lin, grid_transf_inv_lin. repeat split; intros; try (field; lra).
  unfold Rdiv. apply Rmult_lt_compat_r; [apply Rinv_0_lt_compat; lra|assumption].
Qed.
Print Assumptions C30_linear_partial.
Example C30_linear_hyp : 0 < 1 / 2 /\ grid_transf_lin 3 (1 / 2) = 6 /\ grid_transf_inv_lin 6 (1 / 2) = 3.
Proof. unfold grid_transf_lin, grid_transf_inv_lin. repeat split; lra. Qed.
(** the mapping v3 sends everything closer than 1e-12 to the centre to 0 *)
Theorem C30_v3_refuted : forall W c, exists w w', w < w' /\ grid_transf_v3 w W c = grid_transf_v3 w' W c.
Proof.
  intros W c. exists c, (c + almost_zero / 2). pose proof az as Z. split; [lra|]. unfold grid_transf_v3. cbv zeta.
  replace (c - c) with 0 by ring. replace (c + almost_zero / 2 - c) with (almost_zero / 2) by ring.
  rewrite Rabs_R0, (Rabs_pos_eq (almost_zero / 2)) by lra.
  destruct (Rlt_dec 0 almost_zero), (Rlt_dec (almost_zero / 2) almost_zero); lra.
Qed.
Print Assumptions C30_v3_refuted.
(** what remains: never decreasing, and exact away from that interval, with error below 1e-12 in it *)
Theorem C30_v3_partial : forall W c, 0 < W ->
  (forall w, -1 < grid_transf_v3 w W c < 1) /\
  (forall w w', w <= w' -> grid_transf_v3 w W c <= grid_transf_v3 w' W c) /\
  (forall w w', (w = c \/ / 10 ^ 12 <= Rabs (w - c)) -> (w' = c \/ / 10 ^ 12 <= Rabs (w' - c)) -> w < w' -> grid_transf_v3 w W c < grid_transf_v3 w' W c) /\
  (forall w, (w = c \/ / 10 ^ 12 <= Rabs (w - c)) -> grid_transf_inv_v3 (grid_transf_v3 w W c) W c = w) /\
  (forall w, Rabs (grid_transf_inv_v3 (grid_transf_v3 w W c) W c - w) < / 10 ^ 12) /\
  (forall t, -1 < t < 1 -> / 10 ^ 12 <= Rabs (grid_transf_inv_v3 t W c - c) -> grid_transf_v3 (grid_transf_inv_v3 t W c) W c = t) /\
  (forall t t', -1 < t -> t < t' -> t' < 1 -> grid_transf_inv_v3 t W c < grid_transf_inv_v3 t' W c).
Proof.
  intros W c H. assert (E : / 10 ^ 12 = almost_zero) by (unfold almost_zero; f_equal; ring). rewrite E.
  assert (A : forall w, w = c \/ almost_zero <= Rabs (w - c) -> v3_away (w - c)).
  { intros w [-> |K]; [left; ring|right; exact K]. }
  split; [intro; apply v3_range; exact H|]. split; [intros; apply v3_mono; assumption|].
  split; [intros w w' K1 K2 L; apply v3_strict; auto|]. split; [intros; apply v3_inv; auto|].
  split; [intros; apply v3_near; exact H|]. split; [intros t B K; apply v3_back; [exact H|exact B|right; exact K]|].
  intros; apply inv3_inc; assumption.
Qed.
Print Assumptions C30_v3_partial.
Example C30_v3_hyp : 0 < 3 /\ / 10 ^ 12 <= Rabs (3 - 1) /\ grid_transf_v3 3 3 1 = 1 / 2 /\ grid_transf_inv_v3 (1 / 2) 3 1 = 3.
Proof.
  split; [lra|]. rewrite Rabs_pos_eq by lra. split.
  - apply Rle_trans with 1; [|lra]. rewrite <- Rinv_1. apply Rinv_le_contravar; [lra|]. apply pow_R1_Rle. lra.
  - unfold grid_transf_v3, grid_transf_inv_v3. cbv zeta. rewrite Rabs_pos_eq by lra. split; [|field].
    destruct (Rlt_dec (3 - 1) almost_zero) as [K|_]; [unfold almost_zero in K; lra|].
    rewrite (sqrt_eq _ 5) by lra. lra.
Qed.

(** ** C31 *)
Definition ordered (g : hybrid) : Prop := 0 < h_w1 g /\ h_w1 g < h_w2 g /\ h_w2 g < h_upper g /\ 0 < h_t_upper g.
Theorem C31_invertible : forall g, ordered g -> inverse_pair (h_t_from_frequency g) (h_frequency_from_t g) (rescale_rat g) 0.
Proof. intros g (A & B & C & D). apply hybrid_pair; assumption. Qed.
Print Assumptions C31_invertible.
Theorem C31_end_points : forall g, ordered g ->
  h_frequency_from_t g 0 = 0 /\ h_frequency_from_t g (h_t_upper g) = h_upper g /\ h_t_upper g < rescale_rat g /\
  (exists a0 a1, 0 < a0 < a1 /\ a1 < h_t_upper g /\ h_frequency_from_t g a0 = h_w1 g /\ h_frequency_from_t g a1 = h_w2 g).
Proof.
  intros g (A & B & C & D). destruct (hybrid_points g A B C D) as (P0 & P1 & P2 & P3 & P4 & P5).
  split; [exact P0|]. split; [exact P3|]. split; [apply T_below; assumption|].
  exists (h_a0 g), (h_a1 g). auto.
Qed.
Print Assumptions C31_end_points.
(** the formulas of neighbouring sections agree where they meet, in value and in slope *)
Theorem C31_joins : forall g, ordered g ->
  let quad a := a * a / recip_curvature_quad g in let lin a := h_w1 g + (a - h_a0 g) / recip_slope_lin g in
  let rat a := factor_rat g / (1 - a / rescale_rat g) in
  quad (h_a0 g) = lin (h_a0 g) /\ lin (h_a1 g) = rat (h_a1 g) /\
  exists slope, derivable_pt_lim quad (h_a0 g) slope /\ derivable_pt_lim lin (h_a0 g) slope /\
                derivable_pt_lim lin (h_a1 g) slope /\ derivable_pt_lim rat (h_a1 g) slope.
Proof.
  intros g (A & B & C & D) quad lin rat. destruct (hybrid_joins g A B C D) as (J1 & J2 & J3 & J4 & J5).
  pose proof (k_pos g A B C D) as K. split; [unfold quad, lin; rewrite J1; unfold Rdiv; ring|]. split; [unfold lin, rat; rewrite J2, J3; reflexivity|].
  exists (1 / recip_slope_lin g).
  assert (L : forall x, derivable_pt_lim lin x (1 / recip_slope_lin g)).
  { intro x. apply (deriv_ext (fun a => / recip_slope_lin g * a + (h_w1 g - h_a0 g / recip_slope_lin g))).
    - intro y. unfold lin. field. lra.
    - replace (1 / recip_slope_lin g) with (/ recip_slope_lin g * 1 + 0) by (field; lra).
      apply (derivable_pt_lim_plus (fun a => / recip_slope_lin g * a) (fun _ => h_w1 g - h_a0 g / recip_slope_lin g)); [|apply derivable_pt_lim_const].
      apply (derivable_pt_lim_scal id). apply derivable_pt_lim_id. }
  split; [|split; [apply L|split; [apply L|]]].
  - rewrite <- J4. apply (deriv_ext (fun a => / recip_curvature_quad g * (a * a))); [intro y; unfold quad, Rdiv; ring|].
    replace (2 * h_a0 g / recip_curvature_quad g) with (/ recip_curvature_quad g * (1 * h_a0 g + h_a0 g * 1)) by (unfold Rdiv; ring).
    apply (derivable_pt_lim_scal (fun a => a * a)). apply (derivable_pt_lim_mult id id); apply derivable_pt_lim_id.
  - rewrite <- J5. pose proof (hybrid_points g A B C D) as (_ & _ & _ & _ & [P1 P2] & P3). pose proof (T_below g A B C D) as TB.
    assert (R0 : 0 < rescale_rat g) by lra.
    assert (N : 0 < 1 - h_a1 g / rescale_rat g).
    { assert (h_a1 g / rescale_rat g < 1); [|lra]. apply (Rmult_lt_reg_r (rescale_rat g)); [exact R0|]. unfold Rdiv. rewrite Rmult_assoc, Rinv_l by lra. lra. }
    replace (factor_rat g / rescale_rat g / ((1 - h_a1 g / rescale_rat g) * (1 - h_a1 g / rescale_rat g)))
      with ((0 * (1 - h_a1 g / rescale_rat g) - - / rescale_rat g * factor_rat g) / Rsqr (1 - h_a1 g / rescale_rat g)).
    2:{ unfold Rsqr. set (m := 1 - h_a1 g / rescale_rat g) in *. field. lra. }
    apply (derivable_pt_lim_div (fun _ => factor_rat g) (fun a => 1 - a / rescale_rat g)); [apply derivable_pt_lim_const| |lra].
    replace (- / rescale_rat g) with (0 - / rescale_rat g * 1) by ring.
    apply (deriv_ext (fun a => 1 - / rescale_rat g * a)); [intro y; unfold Rdiv; ring|].
    apply (derivable_pt_lim_minus (fun _ => 1) (fun a => / rescale_rat g * a)); [apply derivable_pt_lim_const|].
    apply (derivable_pt_lim_scal id). apply derivable_pt_lim_id.
Qed.
Print Assumptions C31_joins.
Definition hex : hybrid := h_make 11 false (2, 3, 30).
Lemma hex_ordered : ordered hex.
Proof. unfold ordered, h_t_upper, hex. cbn. lra. Qed.
(** T = 5, w1 = 2, w2 = 3, wU = 30: slope constant 50/77 *)
Example C31_hyp : ordered hex /\ h_frequency_from_t hex 5 = 30 /\ h_frequency_from_t hex (-1) = - (5929 / 20000).
Proof.
  split; [exact hex_ordered|]. split.
  - destruct (C31_end_points hex hex_ordered) as (_ & P & _). change (h_upper hex) with 30 in P. rewrite <- P. f_equal.
    unfold h_t_upper, hex. cbn. lra.
  - unfold h_frequency_from_t. cbv zeta. rewrite Rabs_left, sgn_neg by lra.
    assert (T5 : h_t_upper hex = 5) by (unfold h_t_upper, hex; cbn; lra).
    unfold h_a0, recip_curvature_quad, temp_quad, temp. rewrite T5. change (h_w1 hex) with 2. change (h_w2 hex) with 3. change (h_upper hex) with 30.
    destruct (Rlt_dec (- -1) (2 * 5 * 2 * 30 / ((2 + 2 * 3) * 30 - 3 * 3))) as [_|K]; [|exfalso; apply K; lra]. field.
Qed.

(** ** C32 *)
Definition in_order (p : R * R * R) : Prop := let '(w1, w2, wu) := p in 0 < w1 /\ w1 < w2 /\ w2 < wu.
(** for the self-energy grid the first boundary is the constant 25 *)
Theorem C32_selfenergy_refuted : forall Delta, 0 < Delta <= 25 / 27 -> ~ in_order (h_guess 1 Gf Delta).
Proof. intros D H. cbn. lra. Qed.
Print Assumptions C32_selfenergy_refuted.
Example C32_selfenergy_hyp : 0 < 1 / 4 <= 25 / 27 /\ h_guess 1 Gf (1 / 4) = (25, 27 * (1 / 4), 40 * 15 * (1 / 4)).
Proof. split; [lra|reflexivity]. Qed.
(** and then the largest grid value is not the upper frequency: for Delta = 1/4, 150 is intended *)
Theorem C32_top_refuted : let g := h_make 401 false (h_guess 1 Gf (1 / 4)) in
  h_upper g = 150 /\ 14 < h_grid_point g 400 < 15.
Proof.
  intro g. split; [unfold g; cbn; lra|].
  assert (HN : INR 401 = 401) by (rewrite INR_IZR_INZ; reflexivity). assert (HI : INR 400 = 400) by (rewrite INR_IZR_INZ; reflexivity).
  assert (T : h_t_upper g = 200) by (unfold h_t_upper, g; cbn [h_make h_guess h_N h_pos]; rewrite HN; lra).
  unfold h_grid_point. replace (h_is_mid g 400) with false by reflexivity.
  replace (h_t_lower g + h_spacing g * INR 400) with 200.
  2:{ unfold h_spacing, h_t_lower. rewrite T. unfold g; cbn [h_make h_guess h_N h_pos]. rewrite HN, HI. field. }
  unfold h_frequency_from_t. cbv zeta. rewrite Rabs_pos_eq, sgn_pos by lra.
  unfold h_a0, recip_curvature_quad, temp_quad, temp. rewrite T.
  change (h_w1 g) with 25. change (h_w2 g) with (27 * (1 / 4)). change (h_upper g) with (40 * 15 * (1 / 4)).
  match goal with |- context [Rlt_dec ?a ?b] => destruct (Rlt_dec a b) as [_|K]; [|exfalso; apply K; lra] end.
  lra.
Qed.
Print Assumptions C32_top_refuted.
Theorem C32_other_partial : forall cls ty Delta, 0 < Delta -> (cls, ty) <> (1%nat, Gf) \/ 25 / 27 < Delta -> in_order (h_guess cls ty Delta).
Proof.
  intros cls ty D H [K|K].
  - destruct cls as [|[|[|cls]]], ty; cbn; try lra. exfalso. apply K. reflexivity.
  - destruct cls as [|[|[|cls]]], ty; cbn; lra.
Qed.
Print Assumptions C32_other_partial.
Example C32_other_hyp : (2%nat, Gf) <> (1%nat, Gf) /\ h_guess 2 Gf (1 / 2) = (3 * (1 / 2), 10 * (1 / 2), 40 * 15 * (1 / 2)).
Proof. split; [discriminate|reflexivity]. Qed.

(** ** C33 *)
(** the element behind the last one is read for every frequency from the upper limit on, although the box test
    accepts frequencies up to 1e-5 above it *)
Theorem C33_upper_end_refuted : forall g w, valid g -> e_center g = 0 -> e_lower g = - e_upper g ->
  e_upper g <= w < e_upper g + / 100000 ->
  is_in_box g w = true /\ get_grid_index g w = None.
Proof.
  intros g w V C Lo [H1 H2]. split; [|apply get_grid_index_out; assumption].
  unfold is_in_box. rewrite C, Rminus_0_r. assert (0 < e_upper g) by (destruct V as (_ & _ & L & _); lra).
  rewrite Rabs_pos_eq by lra. unfold inter_tol. destruct (Rlt_dec w (e_upper g + / 100000)); [reflexivity|contradiction].
Qed.
Print Assumptions C33_upper_end_refuted.
Definition gex : elias := {| e_form := GKeldysh; e_se := false; e_N := 401; e_upper := 100; e_lower := -100; e_scale := 1;
                             e_center := 0; e_purely_positive := false |}.
Lemma gex_valid : valid gex.
Proof. unfold valid, away, gex; cbn. repeat split; try lra; try lia; discriminate. Qed.
Example C33_upper_end_hyp : valid gex /\ e_center gex = 0 /\ e_lower gex = - e_upper gex /\ e_upper gex <= 100 < e_upper gex + / 100000 /\
  is_in_box gex 100 = true /\ get_grid_index gex 100 = None.
Proof.
  split; [exact gex_valid|]. split; [reflexivity|]. split; [cbn; lra|]. split; [cbn; lra|].
  apply C33_upper_end_refuted; [exact gex_valid|reflexivity|cbn; lra|cbn; lra].
Qed.
(** below the upper limit *)
Theorem C33_below_upper_partial : forall g w, valid g -> e_lower g <= w < e_upper g -> away g w ->
  exists i, get_grid_index g w = Some (Z.of_nat i) /\ (i <= e_N g - 2)%nat /\ encloses (grid_point g) i w /\
            get_grid_index_linear g w = Z.of_nat i.
Proof. intros g w V H A. exact (get_grid_index_ok g V w H A). Qed.
Print Assumptions C33_below_upper_partial.
Example C33_below_upper_hyp : valid gex /\ e_lower gex <= 3 < e_upper gex /\ away gex 3.
Proof. split; [exact gex_valid|]. unfold away; cbn. split; [lra|exact I]. Qed.
(** the correction after truncation makes up for an index that is wrong by one, e.g. through rounding, unless
    the frequency is exactly the upper end of the guessed cell *)
Theorem C33_correction_partial : forall (grid : list R) (w : R) (i index : nat),
  (forall j k x y, (j < k)%nat -> nth_error grid j = Some x -> nth_error grid k = Some y -> x < y) ->
  (S index < length grid)%nat -> (S i < length grid)%nat -> (i <= S index)%nat -> (index <= S i)%nat ->
  (exists a b, nth_error grid i = Some a /\ nth_error grid (S i) = Some b /\ a <= w < b) ->
  w <> nth (S index) grid 0 ->
  correct_index grid (Z.of_nat (length grid)) (Z.of_nat index) w = Some (Z.of_nat i).
Proof. exact correct_index_robust. Qed.
Print Assumptions C33_correction_partial.
Example C33_correction_hyp : correct_index [0; 1; 4; 9] 4 0 (3 / 2) = Some 1%Z /\ correct_index [0; 1; 4; 9] 4 2 (3 / 2) = Some 1%Z.
Proof.
  assert (R1 : read [0; 1; 4; 9] 1 = Some 1) by reflexivity. assert (R2 : read [0; 1; 4; 9] 2 = Some 4) by reflexivity.
  assert (R3 : read [0; 1; 4; 9] 3 = Some 9) by reflexivity. unfold correct_index. split.
  - change (0 + 1)%Z with 1%Z. rewrite R1. cbn [obind]. destruct (Rlt_dec 1 (3 / 2)); [|lra]. change (0 <? 4 - 1)%Z with true. cbv iota.
    rewrite R1. cbn [obind]. destruct (Rlt_dec (3 / 2) 1); [lra|]. reflexivity.
  - change (2 + 1)%Z with 3%Z. rewrite R3. cbn [obind]. destruct (Rlt_dec 9 (3 / 2)); [lra|].
    rewrite R2. cbn [obind]. destruct (Rlt_dec (3 / 2) 4); [|lra]. reflexivity.
Qed.
(** hybrid grid: the index is always in range; the lower neighbour may exceed the frequency only by the 1e-12 on the
    auxiliary axis that are added before truncation *)
Theorem C33_hybrid_partial : forall g w, ordered g -> (2 <= h_N g)%nat ->
  (if h_pos g then 0 else - h_upper g) <= w <= h_upper g ->
  exists i, h_get_grid_index g w = Z.of_nat i /\ (i <= h_N g - 2)%nat /\
    h_aux_point g i <= h_t_from_frequency g w + / 10 ^ 12 /\ w <= h_grid_point g (S i) /\
    (h_aux_point g i <= h_t_from_frequency g w -> h_grid_point g i <= w).
Proof.
  intros g w (A & B & C & D) HN H. destruct (h_index_ok g A B C D HN w H) as (i & E1 & E2 & E3 & E4 & E5 & E6).
  exists i. assert (E : / 10 ^ 12 = almost_zero) by (unfold almost_zero; f_equal; ring). rewrite E. auto.
Qed.
Print Assumptions C33_hybrid_partial.
Example C33_hybrid_hyp : ordered hex /\ (2 <= h_N hex)%nat /\ (if h_pos hex then 0 else - h_upper hex) <= 30 <= h_upper hex.
Proof. split; [exact hex_ordered|]. cbn. split; [lia|lra]. Qed.

(** ** C34 *)
(** moving the centre shifts both limits, but the test compares the distance to the centre with the upper limit *)
Theorem C34_centre_refuted : forall g c, valid g -> 0 < c ->
  let g' := set_w_center g c in
  exists w, e_upper g' + / 100000 < w /\ is_in_box g' w = true.
Proof.
  intros g c V Hc g'. set (half := (e_upper g - e_lower g) * (1 / 2)).
  assert (Hh : 0 < half) by (unfold half; destruct V as (_ & _ & L & _); lra).
  exists (c + half + c / 2 + / 100000). split; [unfold g', set_w_center; cbn; fold half; lra|].
  unfold is_in_box, g', set_w_center; cbn. fold half. replace (c + half + c / 2 + / 100000 - c) with (half + c / 2 + / 100000) by ring.
  rewrite Rabs_pos_eq by lra. unfold inter_tol. destruct (Rlt_dec _ _) as [_|N]; [reflexivity|lra].
Qed.
Print Assumptions C34_centre_refuted.
Example C34_centre_hyp : valid gex /\ 0 < 50 /\ e_upper (set_w_center gex 50) = 150 /\ is_in_box (set_w_center gex 50) 180 = true /\
  get_grid_index (set_w_center gex 50) 180 = None.
Proof.
  split; [exact gex_valid|]. split; [lra|]. split; [cbn; lra|]. split.
  - unfold is_in_box, set_w_center; cbn. replace (180 - 50) with 130 by ring. rewrite Rabs_pos_eq by lra. unfold inter_tol.
    destruct (Rlt_dec _ _); [reflexivity|lra].
  - apply get_grid_index_out; [|cbn; lra]. unfold valid, away, gex; cbn. repeat split; try lra; try lia; discriminate.
Qed.
(** and for a negative centre frequencies of the grid are rejected *)
Theorem C34_negative_centre_refuted : forall g c, valid g -> c < - / 100000 ->
  let g' := set_w_center g c in is_in_box g' (e_upper g') = false /\ is_in_box g' (e_lower g') = false.
Proof.
  intros g c V Hc g'. set (half := (e_upper g - e_lower g) * (1 / 2)).
  assert (Hh : 0 < half) by (unfold half; destruct V as (_ & _ & L & _); lra).
  unfold is_in_box, g', set_w_center; cbn. fold half. unfold inter_tol. split.
  - replace (half + c - c) with half by ring. rewrite Rabs_pos_eq by lra. destruct (Rlt_dec _ _); [lra|reflexivity].
  - replace (- half + c - c) with (- half) by ring. rewrite Rabs_Ropp, Rabs_pos_eq by lra. destruct (Rlt_dec _ _); [lra|reflexivity].
Qed.
Print Assumptions C34_negative_centre_refuted.
Example C34_negative_centre_hyp : valid gex /\ -1 < - / 100000.
Proof. split; [exact gex_valid|lra]. Qed.
(** for a symmetric grid centred at zero the test is exact *)
Theorem C34_centred_partial : forall g w, e_center g = 0 -> e_lower g = - e_upper g ->
  is_in_box g w = true <-> within (e_lower g) (e_upper g) (/ 100000) w.
Proof.
  intros g w C L. unfold is_in_box, within. rewrite C, Rminus_0_r, L. unfold inter_tol.
  destruct (Rlt_dec (Rabs w) (e_upper g + / 100000)) as [K|K].
  - apply Rabs_def2 in K. split; [intros _; lra|reflexivity].
  - split; [discriminate|]. intros [A B]. exfalso. apply K. apply Rabs_def1; lra.
Qed.
Print Assumptions C34_centred_partial.
Example C34_centred_hyp : e_center gex = 0 /\ e_lower gex = - e_upper gex /\ is_in_box gex 100 = true /\ is_in_box gex (-101) = false.
Proof.
  split; [reflexivity|]. split; [cbn; lra|]. unfold is_in_box, inter_tol; cbn. split.
  - rewrite Rminus_0_r, Rabs_pos_eq by lra. destruct (Rlt_dec _ _); [reflexivity|lra].
  - rewrite Rminus_0_r, Rabs_left by lra. destruct (Rlt_dec _ _); [lra|reflexivity].
Qed.

(** ** C78 *)
Theorem C78_measure_is_derivative : forall t W c, -1 < t < 1 ->
  derivable_pt_lim (fun t => grid_transf_inv_v1 t W c) t (integration_measure_v1 t W) /\
  derivable_pt_lim (fun t => grid_transf_inv_v2 t W c) t (integration_measure_v2 t W) /\
  derivable_pt_lim (fun t => grid_transf_inv_v3 t W c) t (integration_measure_v3 t W) /\
  derivable_pt_lim (fun t => grid_transf_inv_v4 t W c) t (integration_measure_v4 t W).
Proof. intros t W c H. split; [apply measure1, H|]. split; [apply measure2, H|]. split; [apply measure3, H|apply measure4, H]. Qed.
Print Assumptions C78_measure_is_derivative.
Example C78_hyp : -1 < - (1 / 2) < 1 /\ integration_measure_v3 (- (1 / 2)) 3 = 20 / 3 /\ integration_measure_v4 (- (1 / 2)) 3 = 16 / 3.
Proof.
  split; [lra|]. unfold integration_measure_v3, integration_measure_v4. cbv zeta. rewrite sgn_neg by lra. split; field.
Qed.

(** ** C79 *)
Theorem C79_grid : forall g, valid g ->
  length (all_frequencies g) = e_N g /\ grid_from_to (fun i => nth i (all_frequencies g) 0) (e_N g) (e_lower g) (e_upper g).
Proof.
  intros g V. unfold all_frequencies. split; [rewrite map_length; apply seq_length|].
  destruct (elias_from_to g V) as (A & B & C). pose proof (VN g V) as N.
  assert (E : forall i, (i < e_N g)%nat -> nth i (map (grid_point g) (seq 0 (e_N g))) 0 = grid_point g i).
  { intros i H. rewrite (nth_indep _ 0 (grid_point g 0)) by (rewrite map_length, seq_length; exact H).
    rewrite map_nth, seq_nth by exact H. reflexivity. }
  split; [rewrite E by lia; exact A|]. split; [rewrite E by lia; exact B|]. intros i j H. rewrite !E by lia. apply C. exact H.
Qed.
Print Assumptions C79_grid.
Example C79_grid_hyp : valid gex /\ e_N gex = 401%nat.
Proof. split; [exact gex_valid|reflexivity]. Qed.
(** changing the upper limit again gives a valid grid with the intended limits *)
Theorem C79_set_upper : forall g wmax, valid g -> e_center g = 0 -> 0 < wmax -> away g wmax ->
  valid (set_w_upper g wmax) /\ e_upper (set_w_upper g wmax) = wmax /\
  e_lower (set_w_upper g wmax) = (if e_purely_positive g then 0 else - wmax).
Proof.
  intros g wmax (N & S & L & AL & AU & P) C H A. split; [|split; reflexivity].
  unfold valid, set_w_upper, set_essential_parameters; cbn. split; [exact N|]. split; [exact S|].
  unfold away in *; cbn. rewrite C in *. split; [|split; [|split]].
  - destruct (e_purely_positive g); lra.
  - destruct (e_form g); try exact I. destruct (e_se g); try exact I. unfold v3_away in *.
    rewrite Rminus_0_r in *. destruct (e_purely_positive g); [left; reflexivity|]. rewrite Rabs_Ropp. destruct A as [->|A]; [left; ring|right; exact A].
  - exact A.
  - destruct (e_purely_positive g); [split; reflexivity|discriminate].
Qed.
Print Assumptions C79_set_upper.
Example C79_set_upper_hyp : valid gex /\ e_center gex = 0 /\ 0 < 7 /\ away gex 7.
Proof. split; [exact gex_valid|]. split; [reflexivity|]. split; [lra|exact I]. Qed.
Theorem C79_hybrid : forall g, ordered g -> (2 <= h_N g)%nat ->
  grid_from_to (h_grid_point g) (h_N g) (if h_pos g then 0 else - h_upper g) (h_upper g).
Proof. intros g (A & B & C & D) HN. exact (hybrid_from_to g A B C D HN). Qed.
Print Assumptions C79_hybrid.
Example C79_hybrid_hyp : ordered hex /\ (2 <= h_N hex)%nat /\ h_pos hex = false.
Proof. split; [exact hex_ordered|]. split; [cbn; lia|reflexivity]. Qed.
(** setting the upper frequency of a purely positive hybrid grid announces a lower limit -wmax, but the grid starts at 0 *)
Theorem C79_hybrid_limit_refuted : forall g wmax, ordered g -> h_pos g = true -> (2 <= h_N g)%nat -> h_w2 g < wmax ->
  h_lower (h_set_w_upper g wmax) = - wmax /\ h_grid_point (h_set_w_upper g wmax) 0 = 0 /\ - wmax < 0.
Proof.
  intros g wmax (A & B & C & D) P N H.
  assert (O : ordered (h_set_w_upper g wmax)) by (unfold ordered, h_t_upper in *; cbn; auto).
  destruct (C79_hybrid _ O N) as (Z & _). cbn [h_pos h_set_w_upper] in Z. rewrite P in Z.
  split; [reflexivity|]. split; [exact Z|lra].
Qed.
Print Assumptions C79_hybrid_limit_refuted.
Example C79_hybrid_limit_hyp : ordered (h_make 5 true (1, 2, 10)) /\ h_lower (h_make 5 true (1, 2, 10)) = 0 /\
  h_lower (h_set_w_upper (h_make 5 true (1, 2, 10)) 20) = - (20).
Proof. unfold ordered, h_t_upper. cbn. split; [lra|]. split; reflexivity. Qed.

(** ** C80 *)
(** boundaries chosen by the optimiser above the upper frequency leave a grid whose last point is not the upper
    frequency *)
Theorem C80_update_refuted : exists g b0 b1, ordered g /\ 0 < b0 < b1 /\ ~ ordered (h_update_boundaries g b0 b1) /\
  h_grid_point (h_update_boundaries g b0 b1) (h_N g - 1) < h_upper (h_update_boundaries g b0 b1).
Proof.
  exists hex, 2, 60. split; [exact hex_ordered|]. split; [lra|].
  assert (E : h_update_boundaries hex 2 60 = {| h_N := 11; h_upper := 30; h_lower := - (30); h_w1 := 2; h_w2 := 60; h_pos := false |}).
  { unfold h_update_boundaries, hex. cbn. rewrite Rmin_right by lra. rewrite Rmax_right by lra. reflexivity. }
  rewrite E. split; [unfold ordered; cbn; lra|]. cbn [h_upper].
  set (g := {| h_N := 11; h_upper := 30; h_lower := - (30); h_w1 := 2; h_w2 := 60; h_pos := false |}).
  assert (T : h_t_upper g = 5) by (unfold h_t_upper, g; cbn; lra).
  change (h_N hex - 1)%nat with 10%nat. unfold h_grid_point. replace (h_is_mid g 10) with false by reflexivity.
  replace (h_t_lower g + h_spacing g * INR 10) with 5 by (unfold h_spacing, h_t_lower; rewrite T; unfold g; cbn; field).
  unfold h_frequency_from_t. cbv zeta. rewrite Rabs_pos_eq, sgn_pos by lra.
  unfold h_a0, h_a1, recip_slope_lin, temp_quad, temp. rewrite T.
  change (h_w1 g) with 2. change (h_w2 g) with 60. change (h_upper g) with 30.
  replace (2 * 5 * 2 * 30 / ((2 + 2 * 60) * 30 - 60 * 60)) with 10 by field.
  destruct (Rlt_dec 5 10) as [_|K]; [|lra].
  unfold recip_curvature_quad, temp_quad, temp. rewrite T. change (h_w1 g) with 2. change (h_w2 g) with 60. change (h_upper g) with 30. lra.
Qed.
Print Assumptions C80_update_refuted.
Theorem C80_update_partial : forall g b0 b1, ordered g -> 0 < b0 < b1 -> b1 < h_upper g -> ordered (h_update_boundaries g b0 b1).
Proof.
  intros g b0 b1 (A & B & C & D) H K. unfold ordered, h_update_boundaries, h_t_upper in *. cbn.
  rewrite Rmin_right by lra. rewrite Rmax_right by lra. lra.
Qed.
Print Assumptions C80_update_partial.
Example C80_update_hyp : ordered hex /\ 0 < 1 < 20 /\ 20 < h_upper hex.
Proof. split; [exact hex_ordered|]. cbn. lra. Qed.
